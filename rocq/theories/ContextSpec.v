(** Specification for C82 and C83. *)
From Coq Require Import String Ascii List Bool.
From Verif Require Import Base XmlM ContextM.
Import ListNotations.
Open Scope string_scope.
Open Scope list_scope.

(** [r] is a revision of [n] and none of its revisions is greater (as texts). *)
Definition Newest (keys : list modid) (n r : string) : Prop :=
  In (n, r) keys /\ forall r', In (n, r') keys -> String.compare r' r <> Gt.

(** What the page shows of a list of nodes: the first one, without what is below it *)
Definition shown (l : list xml) : option (string * option string * list (string * string)) :=
  match l with [] => None | x :: _ => Some (xtag x, xtext x, xattrs x) end.

(** Texts on one line; names of attributes are one word. *)
Definition one_line (s : string) : Prop := ~ In (Ascii.ascii_of_nat 10) (list_ascii_of_string s).
Definition Plain (l : list xml) : Prop :=
  match l with
  | [] => True
  | x :: _ => one_line (xtag x) /\ (forall t, xtext x = Some t -> one_line t) /\
              (forall k v, In (k, v) (xattrs x) -> one_line k /\ one_line v /\ ~ In " "%char (list_ascii_of_string k))
  end.
