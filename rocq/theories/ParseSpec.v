(** Specification of the parser of YANG statements: the grammar, and where statements are. *)
From Coq Require Import String List Bool Arith.
From Verif Require Import ParseM.
Import ListNotations.
Open Scope string_scope.
Open Scope list_scope.
Open Scope nat_scope.

(** A statement without places *)
Inductive tree := Tree (keyword : string) (arg : option string) (kids : list tree) | Remark (text : string).

(** The argument of a statement: nothing, or a word; the pieces of a word are joined. *)
Inductive Arg : option string -> list tok -> Prop :=
| arg_none : Arg None []
| arg_word : forall l, Arg (Some (String.concat "" (map fst l))) [Word l].

(** How trees are spelled (RFC 7950, section 6.3): a keyword, an argument, and a semicolon or
    a block of statements. Comments between statements count if they are kept. *)
Inductive Spells (ident : string -> bool) (keep : bool) : tree -> list tok -> Prop :=
| sp_semi : forall k a la, ident k = true -> Arg a la -> Spells ident keep (Tree k a []) (Word [(k, false)] :: la ++ [Semi])
| sp_block : forall k a la ks body, ident k = true -> Arg a la -> SpellsAll ident keep ks body ->
    Spells ident keep (Tree k a ks) (Word [(k, false)] :: la ++ [Open] ++ body ++ [Close])
| sp_remark : forall c e m, keep = true -> Spells ident keep (Remark c) [Comment c e m]
with SpellsAll (ident : string -> bool) (keep : bool) : list tree -> list tok -> Prop :=
| sp_nil : SpellsAll ident keep [] []
| sp_cons : forall t ts w ws, Spells ident keep t w -> SpellsAll ident keep ts ws -> SpellsAll ident keep (t :: ts) (w ++ ws).

(** At the top: no comment, but one before the module may be passed over. *)
Inductive SpellsTop (ident : string -> bool) (keep : bool) : tree -> list tok -> Prop :=
| st_here : forall k a ks w, Spells ident keep (Tree k a ks) w -> SpellsTop ident keep (Tree k a ks) w
| st_after : forall k a ks w c e m, keep = true -> Spells ident keep (Tree k a ks) w -> SpellsTop ident keep (Tree k a ks) (Comment c e m :: w).

(** A read statement without its places *)
Fixpoint shape (s : stmt) : tree :=
  let '(Stmt k a _ _ _ m ks) := s in
  match m with
  | Some _ => Remark (match a with Some c => c | None => "" end)
  | None => Tree k a (map shape ks)
  end.

(** Places *)
Definition ple (p q : place) : Prop := fst p < fst q \/ fst p = fst q /\ snd p <= snd q.
Definition firstp (s : stmt) : place := let '(Stmt _ _ _ f _ _ _) := s in f.
Definition lastp (s : stmt) : place := let '(Stmt _ _ _ _ l _ _) := s in l.
Definition kidsp (s : stmt) : list stmt := let '(Stmt _ _ _ _ _ _ ks) := s in ks.

(** Tokens that come one after the other *)
Inductive Forward : place -> list token -> Prop :=
| fw_nil : forall p, Forward p []
| fw_cons : forall p t l, ple p (t_from t) -> ple (t_from t) (t_to t) -> Forward (t_to t) l -> Forward p (t :: l).

(** Statements that come one after the other between two places, each with its substatements
    between its own two. *)
Inductive Nested : stmt -> Prop :=
| ne_stmt : forall k a n f l m ks, ple f l -> NestedAll f ks l -> Nested (Stmt k a n f l m ks)
with NestedAll : place -> list stmt -> place -> Prop :=
| na_nil : forall p q, ple p q -> NestedAll p [] q
| na_cons : forall p q s ss, ple p (firstp s) -> Nested s -> NestedAll (lastp s) ss q -> NestedAll p (s :: ss) q.

(** A statement of the tree at any depth *)
Inductive Within : stmt -> stmt -> Prop :=
| wi_here : forall s, Within s s
| wi_down : forall s c d, In c (kidsp s) -> Within c d -> Within s d.

(** The statement begins where its keyword does and ends where its semicolon or its closing
    brace does. *)
Definition Spot (toks : list token) (d : stmt) : Prop :=
  exists k e, In k toks /\ In e toks /\ (let '(Stmt kw _ _ _ _ _ _) := d in t_tok k = Word [(kw, false)]) /\
    (t_tok e = Semi \/ t_tok e = Close) /\ firstp d = t_from k /\ lastp d = t_to e.

(** The statement that says that the module is written in YANG 1.1 *)
Definition Is11 (d : stmt) : Prop := exists n f l ks, d = Stmt "yang-version" (Some "1.1") n f l None ks.

(** A position with other names of files *)
Fixpoint rename (f : string -> string) (p : position) : position :=
  let '(Position ref line u) := p in Position (f ref) line (match u with Some q => Some (rename f q) | None => None end).
