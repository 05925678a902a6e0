(** What identityref values and quoted literals mean, stated without the functions of
    RefM.v. *)
From Coq Require Import String Ascii List Bool Arith.
From Verif Require Import Base TagM TagSpec RefM.
Import ListNotations.
Open Scope string_scope.
Open Scope list_scope.

(** An identifier: not empty, on one line, without a colon. *)
Definition Ident (s : string) : Prop := Word s /\ ~ In ":"%char (chars s).

(** The identity that the text of a node with namespace map [m] refers to: RFC 7950
    section 9.10.3 for prefixes, RFC 7951 section 6.8 for module names. *)
Inductive Refers (T : table) (m : nsmap) : string -> string -> string -> Prop :=
| RBare u n : Ident n -> In (None, u) m -> Refers T m n u n
| RPrefix p u n : Word p -> Ident n -> In (Some p, u) m -> Refers T m (p ++ ":" ++ n)%string u n
| RModule e n : Word (e_name e) -> Ident n -> ~ In (Some (e_name e)) (map fst m) -> In e T ->
    Refers T m (e_name e ++ ":" ++ n)%string (e_url e) n.

(** Text which refers to nothing: its prefix is neither declared nor the name of a module, or it
    has none and there is no default namespace. *)
Inductive Meaningless (T : table) (m : nsmap) : string -> Prop :=
| MPrefix p n : Word p -> Ident n -> ~ In (Some p) (map fst m) -> ~ In p (map e_name T) ->
    Meaningless T m (p ++ ":" ++ n)%string
| MBare n : Ident n -> ~ In None (map fst m) -> Meaningless T m n.

(** A table in which names and URLs identify modules. *)
Definition Unambiguous (T : table) : Prop :=
  NoDup (map e_name T) /\ NoDup (map e_url T) /\ Forall (fun e => Word (e_name e) /\ Word (e_url e)) T.

(** A namespace map: one URL per prefix, prefixes are words. *)
Definition Nsmap (m : nsmap) : Prop :=
  NoDup (map fst m) /\ forall p u, In (Some p, u) m -> Word p.

(** The inside of a literal quoted by [q] and the characters it stands for: a doubled
    quote stands for one. *)
Inductive Inside (q : ascii) : list ascii -> list ascii -> Prop :=
| INil : Inside q [] []
| IChar c b v : c <> q -> Inside q b v -> Inside q (c :: b) (c :: v)
| IPair b v : Inside q b v -> Inside q (q :: q :: b) (q :: v).

(** A quote character. *)
Definition Quote (q : ascii) : Prop := q = apos \/ q = dquo.

(** The text of an instance-identifier as text without '=', then '=' and a literal, and
    so on. *)
Record segment := Segment { g_text : list ascii; g_quote : ascii; g_body : list ascii }.

Definition literal (g : segment) : list ascii := [g_quote g] ++ g_body g ++ [g_quote g].

Fixpoint spell (gs : list segment) (tail : list ascii) : list ascii :=
  match gs with
  | [] => tail
  | g :: r => g_text g ++ ["="%char] ++ literal g ++ spell r tail
  end.

Definition NoEq (l : list ascii) : Prop := ~ In "="%char l.

(** The literals are well formed, and a literal is not followed by its own quote. *)
Fixpoint Spelled (gs : list segment) (tail : list ascii) : Prop :=
  match gs with
  | [] => NoEq tail
  | g :: r => NoEq (g_text g) /\ Quote (g_quote g) /\ (exists v, Inside (g_quote g) (g_body g) v) /\
              hd_error (spell r tail) <> Some (g_quote g) /\ Spelled r tail
  end.

(** The inside does not end in a doubled quote. *)
Definition PlainEnd (g : segment) : Prop := forall b, g_body g <> b ++ [g_quote g].

(** The literal with apostrophes as quotes that stands for the same characters. *)
Definition SameLiteral (g : segment) (l : list ascii) : Prop :=
  exists b v, l = [apos] ++ b ++ [apos] /\ Inside (g_quote g) (g_body g) v /\ Inside apos b v.

(** The pieces that the text should be cut into. *)
Inductive Pieces : list segment -> list ascii -> list piece -> Prop :=
| PEnd : Pieces [] [] []
| PTail t : t <> [] -> Pieces [] t [(t, 0, t)]
| PSeg g gs t ps c : SameLiteral g c -> Pieces gs t ps ->
    Pieces (g :: gs) t ((g_text g ++ ["="%char], 0, g_text g ++ ["="%char]) :: (literal g, 1, c) :: ps).

(** The key leaves of two list entries and what it means that they are the same: identityrefs
    refer to one identity, other leaves have one text. *)
Inductive KeysSame (T : table) : list (datatype * rnode) -> list (datatype * rnode) -> Prop -> Prop :=
| KNoKey : KeysSame T [] [] True
| KIdentity : forall w t m1 m2 x y u n v k a b P, In w (map e_url T) -> Name t -> Nsmap m1 -> Nsmap m2 ->
    In u (map e_url T) -> In v (map e_url T) -> Refers T m1 x u n -> Refers T m2 y v k -> KeysSame T a b P ->
    KeysSame T ((DIdentity, RNode (etree w t) m1 (Some x)) :: a) ((DIdentity, RNode (etree w t) m2 (Some y)) :: b) ((u = v /\ n = k) /\ P)
| KPlain : forall x y a b P, KeysSame T a b P -> KeysSame T ((DPlain, x) :: a) ((DPlain, y) :: b) (r_text x = r_text y /\ P).
