(** Specification: what an XPath with child steps and equality predicates selects, XPath
    1.0 sections 2 and 3.3; how it is written; and paths in a tree of statements. *)
From Coq Require Import String Ascii List Bool Arith.
From Verif Require Import Base XmlM CalcM DataSpec TagM TagSpec XPathM.
Import ListNotations.
Open Scope string_scope.
Open Scope list_scope.

(** [PKey]: some child of this name has this value; [PText]: some text node is equal to the
    value. *)
Inductive xpred := PKey (p : option string) (n v : string) | PText (v : string).
Record xstep := XStep { x_prefix : option string; x_name : string; x_preds : list xpred }.

(** ** How it is written *)
Definition show_qname (p : option string) (n : string) : string :=
  match p with None => n | Some p => (p ++ ":" ++ n)%string end.
Definition show_pred (d : xpred) : string :=
  match d with
  | PKey p n v => ("[" ++ show_qname p n ++ "=" ++ dq ++ v ++ dq ++ "]")%string
  | PText v => ("[text()=" ++ dq ++ v ++ dq ++ "]")%string
  end.
Definition show_step (s : xstep) : string :=
  ("/" ++ show_qname (x_prefix s) (x_name s) ++ String.concat "" (map show_pred (x_preds s)))%string.
Definition show_path (l : list xstep) : string := String.concat "" (map show_step l).

(** Names and values that can be read back *)
Definition Ncname (s : string) : Prop :=
  s <> "" /\ forall c, In c (chars s) -> ~ In c (newline :: chars "/[]()=:{}" ++ chars dq).
Definition Literal (v : string) : Prop := ~ In (ascii_of_nat 34) (chars v).
Definition PredOK (d : xpred) : Prop :=
  match d with
  | PKey p n v => (match p with None => True | Some p => Ncname p end) /\ Ncname n /\ Literal v
  | PText v => Literal v
  end.
Definition StepOK (s : xstep) : Prop :=
  (match x_prefix s with None => True | Some p => Ncname p end) /\ Ncname (x_name s) /\ Forall PredOK (x_preds s).

(** ** What it selects *)

(** [env] says what a prefix stands for. A name without prefix belongs to the namespace
    [d] of the step before it (or, in a predicate, of its step). *)
Definition resolve (env : string -> option string) (d : string) (p : option string) : option string :=
  match p with None => Some d | Some p => env p end.

Fixpoint string_value (x : xml) : string :=
  let '(Elem _ tx _ ks) := x in
  (match tx with Some v => v | None => "" end ++ String.concat "" (map string_value ks))%string.

Definition named (u : option string) (n : string) (x : xml) : bool :=
  match u with Some u => String.eqb (xtag x) (etree u n) | None => false end.
Definition pred_holds (env : string -> option string) (d : string) (x : xml) (q : xpred) : bool :=
  match q with
  | PKey p n v => existsb (fun k => named (resolve env d p) n k && String.eqb (string_value k) v) (xkids x)
  | PText v => match xtext x with Some w => negb (String.eqb w "") && String.eqb w v | None => false end
  end.

(** The positions below [x] that the path selects *)
Fixpoint select (env : string -> option string) (d : string) (x : xml) (l : list xstep) : list (list nat) :=
  match l with
  | [] => [[]]
  | s :: r =>
      match resolve env d (x_prefix s) with
      | None => []
      | Some u =>
          flat_map (fun ic =>
            if named (Some u) (x_name s) (snd ic) && forallb (pred_holds env u (snd ic)) (x_preds s)
            then map (cons (fst ic)) (select env u (snd ic) r) else [])
            (combine (seq 0 (length (xkids x))) (xkids x))
      end
  end.

(** ** Nodes *)

Fixpoint node_at (x : xml) (pos : list nat) : option xml :=
  match pos with
  | [] => Some x
  | i :: r => match nth_error (xkids x) i with Some c => node_at c r | None => None end
  end.

(** [q] is the position of a sibling of [pos], or [pos] itself, with the same tag. *)
Definition like (x : xml) (pos q : list nat) : Prop :=
  exists par c j k, node_at x (removelast pos) = Some par /\ node_at x pos = Some c /\
    q = removelast pos ++ [j] /\ nth_error (xkids par) j = Some k /\ xtag k = xtag c.

(** The table knows the namespace of [t], which is one of [urls], and its prefix and the
    name can be written. *)
Definition Known (T : table) (urls : list string) (t : string) : Prop :=
  exists e n, Sole T KUrl e /\ In (e_url e) urls /\ t = etree (e_url e) n /\ Word (e_url e) /\ Ncname (e_prefix e) /\ Ncname n.
(** Values that can be written: there is one, without quotes. *)
Definition Quotable (t : option string) : Prop := exists v, t = Some v /\ v <> "" /\ Literal v.
Definition QuotableId (u : uid) : Prop :=
  match snd u with KText t => Quotable t | KTup ts => Forall Quotable ts | KNone => True end.

(** All names, and the identities on the way to a node, can be written. *)
Fixpoint Writable (T : table) (urls : list string) (s : snode) (x : xml) (pos : list nat) : Prop :=
  match pos with
  | [] => True
  | i :: r => forall c cs, nth_error (xkids x) i = Some c -> Defines s (xtag c) cs ->
      Known T urls (xtag c) /\ Forall (Known T urls) (s_keys (si cs)) /\
      (forall u, Ident cs c u -> QuotableId u) /\ Writable T urls cs c r
  end.

(** The prefixes of the namespaces [urls] mean what the table says. *)
Definition Env (T : table) (urls : list string) (env : string -> option string) : Prop :=
  forall e, Sole T KUrl e -> In (e_url e) urls -> env (e_prefix e) = Some (e_url e).

(** Every name has a prefix, so that the path means the same in any context. *)
Definition Prefixed (l : list xstep) : Prop :=
  forall st, In st l -> x_prefix st <> None /\ forall p n v, In (PKey p n v) (x_preds st) -> p <> None.

(** ** Names in a path *)

(** The tags that the names of a path stand for *)
Fixpoint path_tags (env : string -> option string) (d : string) (l : list xstep) : list (option string) :=
  match l with
  | [] => []
  | s :: r =>
      match resolve env d (x_prefix s) with
      | None => [None]
      | Some u => Some (etree u (x_name s)) :: path_tags env u r
      end
  end.

(** ** Statements *)

(** [t] is reached from [m] by the names and prefixes [l]. *)
Inductive Reached (m : stmt) : list (string * string) -> stmt -> Prop :=
| re_here : Reached m [] m
| re_down : forall l t c, Reached m l t -> In c (st_kids t) -> Reached m (l ++ [(st_pre c, st_arg c)]) c.
(** The tag of a statement: the URL of its module and its name. *)
Definition TagOf (T : table) (pn : string * string) (tag : string) : Prop :=
  exists e, Sole T KUrl e /\ e_prefix e = fst pn /\ tag = etree (e_url e) (snd pn) /\
            Word (e_url e) /\ Ncname (fst pn) /\ Ncname (snd pn).
(** No two children of a statement have the same name and prefix. *)
Inductive Clear : stmt -> Prop :=
| clear : forall t, NoDup (map (fun c => (st_pre c, st_arg c)) (st_kids t)) -> (forall c, In c (st_kids t) -> Clear c) -> Clear t.
(** No statement's name has a bracket. *)
Inductive ArgsOK : stmt -> Prop :=
| args_ok : forall t, (forall c, In c (st_kids t) -> ~ In "["%char (chars (st_arg c)) /\ ArgsOK c) -> ArgsOK t.
