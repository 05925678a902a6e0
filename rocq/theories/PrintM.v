(** Names in a model and the printed tree: class Model, /repo/src/ncdiff/model.py:90-471, and
    the printing of class ModelDiff, model.py:1460-1551. A tree is the XML that the code works
    on, after [convert_tree] (model.py:473-491) has removed the namespace elements. No proofs in
    this file. *)
From Coq Require Import String Ascii List Bool Arith.
From Verif Require Import Base XmlM TagM ReorderM XPathM DepictM.
Import ListNotations.
Open Scope string_scope.
Open Scope list_scope.
Open Scope nat_scope.

(** What [Model.__init__] computes, model.py:90-104. *)
Record model := Model { m_prefix : string; m_prefixes : list (string * string); m_url : string; m_urls : list (string * string) }.
Definition model_init (prefix : string) (l : list (string * string)) : res model :=
  let! r := model_ns prefix l in
  let '(ps, u, us) := r in Ok (Model prefix ps u us).

(** [prefix_to_url], model.py:392-416 *)
Definition prefix_to_url (m : model) (id : string) : res string :=
  match split_at ":" id with
  | (h, t :: _) => match assoc String.eqb h (m_prefixes m) with
                   | Some u => Ok ("{" ++ u ++ "}" ++ t)%string
                   | None => Err KeyError
                   end
  | (_, []) => Ok ("{" ++ m_url m ++ "}" ++ id)%string
  end.

(** [url_to_prefix], model.py:418-442 *)
Definition url_to_prefix (m : model) (id : string) : res string :=
  match re_brace id with
  | Some (u, n) => match assoc String.eqb u (m_urls m) with
                   | Some p => Ok (p ++ ":" ++ n)%string
                   | None => Err KeyError
                   end
  | None => Ok id
  end.

(** [remove_model_prefix], model.py:444-471. The prefix is part of the regular expression
    without escaping. Of the characters that a YANG identifier can have, only the dot is
    special; the others of [re] are not modelled. *)
Fixpoint rx_prefix (pat s : string) : option string :=
  match pat, s with
  | EmptyString, _ => Some s
  | String p pr, String a r => if Ascii.eqb p "." || Ascii.eqb p a then rx_prefix pr r else None
  | _, EmptyString => None
  end.
Definition remove_model_prefix (m : model) (id : string) : string :=
  match line id with
  | Some l => match rx_prefix (m_prefix m ++ ":")%string l with
              | Some (String a r) => String a r
              | _ => id
              end
  | None => id
  end.

(** ** Printing *)

(** [get_flags_str], model.py:272-305 *)
Definition flags_str (x : xml) : string :=
  let ty := get_attr "type" x in
  if eq_opt "rpc" ty || eq_opt "action" ty then "-x"
  else if eq_opt "notification" ty then "-n"
  else match get_attr "access" x with
       | None => ""
       | Some a => if String.eqb a "write" then "-w" else if String.eqb a "read-write" then "rw"
                   else if String.eqb a "read-only" then "ro" else "--"
       end.

(** [get_name_str], model.py:307-356. Without a type it returns None, and the [len] that
    follows in all callers raises. *)
Definition name_str (m : model) (x : xml) : res string :=
  let! n := url_to_prefix m (xtag x) in
  let n := remove_model_prefix m n in
  let f := flags_str x in
  match get_attr "type" x with
  | None => Err TypeError
  | Some ty =>
      Ok (if String.eqb ty "choice" then
            if eq_opt "true" (get_attr "mandatory" x) then f ++ " (" ++ n ++ ")" else f ++ " (" ++ n ++ ")?"
          else if String.eqb ty "case" then ":(" ++ n ++ ")"
          else if String.eqb ty "container" then f ++ " " ++ n
          else if String.eqb ty "leaf" || String.eqb ty "anyxml" || String.eqb ty "anydata" then
            if eq_opt "true" (get_attr "mandatory" x) then f ++ " " ++ n else f ++ " " ++ n ++ "?"
          else if String.eqb ty "list" then
            match get_attr "key" x with
            | Some k => f ++ " " ++ n ++ "* [" ++ k ++ "]"
            | None => f ++ " " ++ n ++ "*"
            end
          else if String.eqb ty "leaf-list" then f ++ " " ++ n ++ "*"
          else f ++ " " ++ n)%string
  end.

(** [root.iter()]: the nodes with their positions, in document order. *)
Fixpoint iter (pos : list nat) (x : xml) : list (list nat * xml) :=
  let '(Elem _ _ _ ks) := x in
  (pos, x) :: (fix go (i : nat) (l : list xml) : list (list nat * xml) :=
                 match l with [] => [] | c :: r => iter (pos ++ [i]) c ++ go (S i) r end) 0 ks.

(** [itersiblings()] of a node *)
Definition next_siblings (tree : xml) (pos : list nat) : list xml :=
  match rev pos with
  | [] => []
  | i :: q => match node_at tree (rev q) with Some p => skipn (S i) (xkids p) | None => [] end
  end.

(** [following_siblings], model.py:242-253 *)
Definition following (section : string) (s : xml) : bool :=
  if String.eqb section "rpc" || String.eqb section "notification" then eq_opt section (get_attr "type" s)
  else negb (eq_opt "rpc" (get_attr "type" s)) && negb (eq_opt "notification" (get_attr "type" s)).

(** The loop of [get_depth_str], model.py:255-267, for the ancestor at [p] *)
Definition bar (tree : xml) (section : string) (p : list nat) : string :=
  match p with
  | [_] => match filter (following section) (next_siblings tree p) with [] => "   " | _ => "|  " end
  | _ => match next_siblings tree p with [] => "   " | _ => "|  " end
  end.
(** [get_depth_str], model.py:220-269: the ancestors of [pos] from the root *)
Fixpoint ancestors (pos : list nat) : list (list nat) :=
  match pos with [] => [] | i :: r => [] :: map (cons i) (ancestors r) end.
Definition depth_str (tree : xml) (section : string) (pos : list nat) : string :=
  (" " ++ String.concat "" (map (bar tree section) (ancestors pos)) ++ "+--")%string.

(** [is_type] of [emit_children], model.py:165-173 and 1483-1491 *)
Definition is_type (section : string) (x : xml) : bool :=
  let ty := get_attr "type" x in
  if eq_opt section ty then true
  else if String.eqb section "rpc" || String.eqb section "notification" then false
  else if eq_opt "rpc" ty || eq_opt "notification" ty then false
  else true.

Fixpoint spaces (n : nat) : string := match n with 0 => "" | S k => String " " (spaces k) end.

(** [get_width], model.py:190-217. The result is kept per parent: WidthM.v has that memory. *)
Definition width (nm : xml -> res string) (parent : xml) : res nat :=
  let! l := mapM nm (xkids parent) in
  Ok ((fold_left (fun w s => Nat.max w (String.length s)) l 0 + 3 + 2) / 3 * 3).

(** One line, model.py:177-187 and 1495-1502. [tail] is what follows the name, if anything
    does; it gets the blanks up to the width. *)
Definition emit_line (nm : xml -> res string) (tail : xml -> option (string -> string))
    (tree : xml) (section : string) (px : list nat * xml) : res string :=
  let '(pos, x) := px in
  let! n := nm x in
  match tail x with
  | None => Ok (depth_str tree section pos ++ n)%string
  | Some f =>
      match node_at tree (removelast pos) with
      | None => Err AttributeError
      | Some parent =>
          let! w := width nm parent in
          Ok (depth_str tree section pos ++ n ++ f (spaces (w - String.length n)))%string
      end
  end.

(** [emit_children], model.py:142-188 and 1460-1503 *)
Fixpoint roots_of (i : nat) (section : string) (l : list xml) : list (list nat * xml) :=
  match l with
  | [] => []
  | c :: r => (if is_type section c then iter [i] c else []) ++ roots_of (S i) section r
  end.
Definition emit_children nm tail (tree : xml) (section : string) : res (list string) :=
  mapM (emit_line nm tail tree section) (roots_of 0 section (xkids tree)).

(** [emit_tree], model.py:112-140 *)
Definition emit_tree nm tail (tree : xml) : res string :=
  let! a := emit_children nm tail tree "other" in
  let! b := emit_children nm tail tree "rpc" in
  let! c := emit_children nm tail tree "notification" in
  Ok (String.concat (String newline "")
        (("module: " ++ xtag tree)%string :: a ++
         match b with [] => [] | _ => ["" ; "  rpcs:"] ++ b end ++
         match c with [] => [] | _ => ["" ; "  notifications:"] ++ c end)).

(** [get_datatype_str], model.py:358-390, and the condition for it, model.py:182-185 *)
Definition model_tail (x : xml) : option (string -> string) :=
  let ty := get_attr "type" x in
  let any := eq_opt "anyxml" ty || eq_opt "anydata" ty in
  let feat := match get_attr "if-feature" x with Some f => (" {" ++ f ++ "}?")%string | None => "" end in
  match any, get_attr "datatype" x, get_attr "if-feature" x with
  | false, None, None => None
  | _, dt, _ => Some (fun sp =>
      ((if any then sp ++ "<" ++ match ty with Some t => t | None => "" end ++ ">"
        else match dt with Some d => sp ++ d | None => "" end) ++ feat)%string)
  end.
(** [Model.__str__], model.py:106-107 *)
Definition print_model (m : model) (tree : xml) : res string := emit_tree (name_str m) model_tail tree.

(** [ModelDiff.get_name_str] and [get_diff_str], model.py:1505-1551 *)
Definition diff_name (m1 m2 : model) (x : xml) : res string :=
  if eq_opt "added" (get_attr "diff" x) then name_str m2 x else name_str m1 x.
Definition diff_tail (x : xml) : option (string -> string) :=
  match get_attr "diff" x with Some d => Some (fun sp => (sp ++ d)%string) | None => None end.
Definition print_diff (m1 m2 : model) (tree : xml) : res string := emit_tree (diff_name m1 m2) diff_tail tree.
