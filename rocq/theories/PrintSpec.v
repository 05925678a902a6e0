(** Specification: names in a model and the drawing of a tree, RFC 8340 section 2. *)
From Coq Require Import String Ascii List Bool Arith.
From Verif Require Import Base XmlM TagM TagSpec DepictM DepictSpec.
Import ListNotations.
Open Scope string_scope.
Open Scope list_scope.
Open Scope nat_scope.

(** The modules that a model knows: prefixes and URLs. *)
Definition Known (l : list (string * string)) : Prop :=
  NoDup (map fst l) /\ NoDup (map snd l) /\ forall p u, In (p, u) l -> Identifier p /\ Word u.

(** ** Drawing *)
Inductive ltree := LNode (label : string) (kids : list ltree).
(** A node and, below it, its children: the bar of a node goes on until its next sibling. *)
Fixpoint draw (pre : string) (last : bool) (t : ltree) : list string :=
  let '(LNode s ks) := t in
  (pre ++ "+--" ++ s)%string ::
  (fix go (l : list ltree) : list string :=
     match l with
     | [] => []
     | c :: r => draw (pre ++ if last then "   " else "|  ")%string (match r with [] => true | _ => false end) c ++ go r
     end) ks.
Fixpoint draws (pre : string) (l : list ltree) : list string :=
  match l with
  | [] => []
  | c :: r => draw pre (match r with [] => true | _ => false end) c ++ draws pre r
  end.

(** The width of siblings: the least multiple of three that leaves three blanks. *)
Definition Width (names : list string) (w : nat) : Prop :=
  (exists k, w = k * 3) /\ (forall n, In n names -> String.length n + 3 <= w) /\
  (names <> [] -> exists n, In n names /\ w < String.length n + 6).

(** The labels of a tree. [nm] gives the name of a node; [tail] what follows, behind blanks
    that fill the width. *)
Inductive Labelled (nm : xml -> string -> Prop) (tail : xml -> option (string -> string)) : list xml -> xml -> ltree -> Prop :=
| labelled : forall siblings x n s ks, nm x n ->
    match tail x with
    | None => s = n
    | Some f => exists names w sp, Forall2 nm siblings names /\ Width names w /\ Blanks sp /\
                  String.length n + String.length sp = w /\ s = (n ++ f sp)%string
    end ->
    Forall2 (Labelled nm tail (xkids x)) (xkids x) ks ->
    Labelled nm tail siblings x (LNode s ks).

(** The labels of a comparison: what happened to a node follows its name, behind at least
    three blanks. The name of an added node is that in the second model. *)
Inductive ToldOf (nm1 nm2 : xml -> string -> Prop) : xml -> ltree -> Prop :=
| told_of : forall x n s ks,
    (get_attr "diff" x = Some "added" -> nm2 x n) -> (get_attr "diff" x <> Some "added" -> nm1 x n) ->
    match get_attr "diff" x with
    | None => s = n
    | Some d => exists sp, Blanks sp /\ 3 <= String.length sp /\ s = (n ++ sp ++ d)%string
    end ->
    Forall2 (ToldOf nm1 nm2) (xkids x) ks -> ToldOf nm1 nm2 x (LNode s ks).

(** The sections of the print *)
Definition in_rpcs (x : xml) : bool := match get_attr "type" x with Some t => String.eqb t "rpc" | None => false end.
Definition in_notifications (x : xml) : bool := match get_attr "type" x with Some t => String.eqb t "notification" | None => false end.
Definition in_data (x : xml) : bool := negb (in_rpcs x) && negb (in_notifications x).
Definition section_text (title : string) (f : list ltree) : list string :=
  match f with [] => [] | _ => [""; title] ++ draws "    " f end.
Definition page (name : string) (data rpcs notes : list ltree) : list string :=
  ("module: " ++ name)%string :: draws "    " data ++ section_text "  rpcs:" rpcs ++ section_text "  notifications:" notes.

(** ** Lines that join *)
(** The column of the first plus sign *)
Fixpoint plus (s : string) : nat :=
  match s with EmptyString => 0 | String a r => if Ascii.eqb a "+" then 0 else S (plus r) end.
Definition bar_at (s : string) (c : nat) : Prop := c < plus s /\ String.get c s = Some "|"%char.
(** Below a bar there is a bar or a plus sign. A plus sign is below a plus sign or a bar, or
    it is the first child of the line above. *)
Definition below (a b : string) : Prop :=
  (forall c, bar_at a c -> bar_at b c \/ plus b = c) /\
  (plus b = plus a + 3 \/ plus b = plus a \/ bar_at a (plus b)).
Inductive Joins : list string -> Prop :=
| joins_nil : Joins []
| joins_one : forall a, (forall c, ~ bar_at a c) -> Joins [a]
| joins_cons : forall a b r, below a b -> Joins (b :: r) -> Joins (a :: b :: r).

(** ** Marks *)
Inductive mark := MPlain | MOptional | MMany | MKeyed (k : string) | MChoice | MOptChoice | MCase.
Definition shown (flags : string) (mk : mark) (n : string) : string :=
  (match mk with
   | MPlain => flags ++ " " ++ n
   | MOptional => flags ++ " " ++ n ++ "?"
   | MMany => flags ++ " " ++ n ++ "*"
   | MKeyed k => flags ++ " " ++ n ++ "* [" ++ k ++ "]"
   | MChoice => flags ++ " (" ++ n ++ ")"
   | MOptChoice => flags ++ " (" ++ n ++ ")?"
   | MCase => ":(" ++ n ++ ")"
   end)%string.
Definition is_mandatory (x : xml) : Prop := get_attr "mandatory" x = Some "true".
Definition MarkOf (ty : string) (x : xml) (mk : mark) : Prop :=
  match mk with
  | MPlain => (In ty ["leaf"; "anyxml"; "anydata"] /\ is_mandatory x) \/
              ~ In ty ["leaf"; "anyxml"; "anydata"; "list"; "leaf-list"; "choice"; "case"]
  | MOptional => In ty ["leaf"; "anyxml"; "anydata"] /\ ~ is_mandatory x
  | MMany => ty = "leaf-list" \/ ty = "list" /\ get_attr "key" x = None
  | MKeyed k => ty = "list" /\ get_attr "key" x = Some k
  | MChoice => ty = "choice" /\ is_mandatory x
  | MOptChoice => ty = "choice" /\ ~ is_mandatory x
  | MCase => ty = "case"
  end.
Definition FlagsOf (ty : string) (x : xml) (f : string) : Prop :=
  if String.eqb ty "rpc" || String.eqb ty "action" then f = "-x"
  else if String.eqb ty "notification" then f = "-n"
  else match get_attr "access" x with
       | Some "write" => f = "-w" | Some "read-write" => f = "rw" | Some "read-only" => f = "ro"
       | Some _ => f = "--" | None => f = ""
       end.
(** What can stand between the flags and the mark: a node name, with a prefix or without *)
Definition Display (n : string) : Prop := n <> "" /\ forall c, In c (chars n) -> ~ In c (newline :: chars " {}()?*[]").
(** What can follow *)
Definition TailText (s : string) : Prop :=
  s = "" \/ (exists r, s = ("   " ++ r)%string) \/ exists r, s = (" {" ++ r)%string.

(** ** What a print tells *)
(** A name without the characters of the marks *)
Definition Clear (s : string) : Prop := Identifier s /\ Display s.
Definition NoLines (s : string) : Prop := ~ In newline (chars s).
(** A node of a model that knows [l] *)
Inductive Printable (l : list (string * string)) : xml -> Prop :=
| printable : forall x p u n ty, In (p, u) l -> Clear p -> Clear n -> xtag x = etree u n ->
    get_attr "type" x = Some ty -> NoLines ty -> ty <> "other" -> ~ In "{"%char (chars ty) ->
    (forall k, get_attr "key" x = Some k -> NoLines k /\ ~ In "]"%char (chars k)) ->
    (forall d, get_attr "datatype" x = Some d -> NoLines d /\ ~ In "{"%char (chars d) /\ exists c r, d = String c r /\ c <> " "%char) ->
    (forall f, get_attr "if-feature" x = Some f -> NoLines f) ->
    Forall (Printable l) (xkids x) -> Printable l x.
(** A node whose module is known, with a type *)
Definition NamedNode (l : list (string * string)) (x : xml) : Prop :=
  exists p u n ty, In (p, u) l /\ Identifier n /\ xtag x = etree u n /\ get_attr "type" x = Some ty.
(** The data type that is shown *)
Definition ShownType (ty : string) (x : xml) : option string :=
  if String.eqb ty "anyxml" || String.eqb ty "anydata" then Some ("<" ++ ty ++ ">")%string else get_attr "datatype" x.
(** Two nodes with the same name, mark, flags, data type and features, and with such
    children in the same order *)
Inductive Alike : xml -> xml -> Prop :=
| alike : forall x y ty ty' mk f f',
    xtag x = xtag y -> get_attr "type" x = Some ty -> get_attr "type" y = Some ty' ->
    MarkOf ty x mk -> MarkOf ty' y mk -> FlagsOf ty x f -> FlagsOf ty' y f' -> (mk <> MCase -> f = f') ->
    ShownType ty x = ShownType ty' y -> get_attr "if-feature" x = get_attr "if-feature" y ->
    Forall2 Alike (xkids x) (xkids y) -> Alike x y.
