(** What tags and namespace tables mean, stated without the functions of TagM.v. *)
From Coq Require Import String Ascii List Bool Arith.
From Verif Require Import Base TagM.
Import ListNotations.
Open Scope string_scope.
Open Scope list_scope.

(** The characters of a string. *)
Definition chars (s : string) : list ascii := list_ascii_of_string s.

(** A module name, prefix or URL: not empty, on one line. *)
Definition Word (s : string) : Prop := s <> "" /\ ~ In newline (chars s).

(** A node name: also without the characters that end a namespace. *)
Definition Name (s : string) : Prop :=
  Word s /\ ~ In ":"%char (chars s) /\ ~ In "}"%char (chars s).

(** [e] is the only entry of the table with its name (prefix, URL). *)
Definition Sole (T : table) (k : kind) (e : entry) : Prop :=
  exists l r, T = l ++ e :: r /\ forall x, In x (l ++ r) -> field k x <> field k e.

(** No module uses the prefix of a built-in namespace for another namespace. *)
Definition KeepsSpecials (T : table) : Prop :=
  forall e s, In e T -> In s specials -> e_prefix e = e_prefix s -> e_url e = e_url s.

(** Prefixes identify namespaces, in the table and the built-in ones. *)
Definition PrefixesDistinct (T : table) : Prop :=
  forall a b, In a (T ++ specials) -> In b (T ++ specials) ->
              e_prefix a = e_prefix b -> e_url a = e_url b.

Definition digit (c : ascii) : Prop := In c (chars "0123456789").

(** No module prefix looks like ns00, ns01, ... *)
Definition NoNumbered (T : table) : Prop :=
  forall e, In e T -> ~ exists d, e_prefix e = ("ns" ++ d)%string /\ Forall digit (chars d).

(** The [{url}name] form of a tag. *)
Definition etree (url name : string) : string := ("{" ++ url ++ "}" ++ name)%string.

(** The form [qualifier:name] of a tag, or the bare name where the notation omits the
    qualifier of the default namespace. *)
Definition short (o : omit) (dflt q name : string) : string :=
  match o with
  | NoOmit => (q ++ ":" ++ name)%string
  | _ => if String.eqb dflt q then name else (q ++ ":" ++ name)%string
  end.

(** A default namespace: none, or an entry of the table, in the given kind. *)
Definition dflt (d : option entry) (k : kind) : string :=
  match d with None => "" | Some e => field k e end.
