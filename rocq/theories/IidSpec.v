(** What an instance-identifier denotes: RFC 7950 section 9.13 and RFC 7951 section 6.11,
    stated without the functions of RefM.v. *)
From Coq Require Import String Ascii List Bool Arith.
From Verif Require Import Base TagM TagSpec RefM RefSpec.
Import ListNotations.
Open Scope string_scope.
Open Scope list_scope.

(** The characters of YANG identifiers. *)
Definition Letter (c : ascii) : Prop :=
  In c (chars "abcdefghijklmnopqrstuvwxyzABCDEFGHIJKLMNOPQRSTUVWXYZ0123456789_-.").
Definition Alpha (c : ascii) : Prop :=
  In c (chars "abcdefghijklmnopqrstuvwxyzABCDEFGHIJKLMNOPQRSTUVWXYZ_").
Definition Digit (c : ascii) : Prop := In c (chars "0123456789").
Definition YangId (s : string) : Prop :=
  (exists c r, s = String c r /\ Alpha c) /\ forall c, In c (chars s) -> Letter c.
Definition Number (s : string) : Prop := s <> "" /\ forall c, In c (chars s) -> Digit c.

(** A path: steps with optional prefixes, followed by predicates on keys, on the value of a
    leaf-list entry ([Pred None]) or by position. Blanks inside of predicates are left
    out. *)
Inductive item :=
| Step (p : option string) (n : string)
| Pred (k : option (option string * string)) (q : ascii) (body : list ascii)
| Nth (n : string).

Definition qname (p : option string) (n : string) : list ascii :=
  match p with None => chars n | Some p => chars p ++ ":"%char :: chars n end.

Definition show_item (i : item) : list ascii :=
  match i with
  | Step p n => "/"%char :: qname p n
  | Pred k q b => "["%char :: match k with None => ["."%char] | Some (p, n) => qname p n end ++
                  "="%char :: q :: b ++ [q; "]"%char]
  | Nth n => "["%char :: chars n ++ ["]"%char]
  end.

Definition show_items (l : list item) : list ascii := flat_map show_item l.

(** The same with names resolved and values unquoted. *)
Inductive sem :=
| VStep (url name : string)
| VKey (url name : string) (value : list ascii)
| VSelf (value : list ascii)
| VNth (n : string).

(** Prefix [p] stands for [u]: it is declared, or it is the name of a module. *)
Definition Prefix (T : table) (m : nsmap) (p u : string) : Prop :=
  In (Some p, u) m \/
  (~ In (Some p) (map fst m) /\ exists e, In e T /\ e_name e = p /\ e_url e = u).

(** A name without prefix is in the namespace of the step before it, [d]. *)
Inductive Resolved (T : table) (m : nsmap) (d : option string) : option string -> string -> Prop :=
| Resolved_bare : forall u, d = Some u -> Resolved T m d None u
| Resolved_prefix : forall p u, YangId p -> Prefix T m p u -> Resolved T m d (Some p) u.

Inductive Denotes (T : table) (m : nsmap) : option string -> list item -> list sem -> Prop :=
| DNil : forall d, Denotes T m d [] []
| DStep : forall d p n u r s, Resolved T m d p u -> YangId n -> Denotes T m (Some u) r s ->
    Denotes T m d (Step p n :: r) (VStep u n :: s)
| DKey : forall d p n u q b v r s, Resolved T m (Some d) p u -> YangId n -> Quote q -> Inside q b v ->
    Denotes T m (Some d) r s -> Denotes T m (Some d) (Pred (Some (p, n)) q b :: r) (VKey u n v :: s)
| DSelf : forall d q b v r s, Quote q -> Inside q b v -> Denotes T m (Some d) r s ->
    Denotes T m (Some d) (Pred None q b :: r) (VSelf v :: s)
| DNth : forall d n r s, Number n -> Denotes T m (Some d) r s ->
    Denotes T m (Some d) (Nth n :: r) (VNth n :: s).

(** No dots, no position, and no literal that ends in a doubled quote. *)
Definition NoDot (s : string) : Prop := ~ In "."%char (chars s).
Definition NoDotQ (p : option string) (n : string) : Prop :=
  NoDot n /\ match p with None => True | Some p => NoDot p end.
Definition Tame (i : item) : Prop :=
  match i with
  | Step p n => NoDotQ p n
  | Pred k q b => match k with None => True | Some (p, n) => NoDotQ p n end /\ forall b', b <> b' ++ [q]
  | Nth _ => False
  end.

Definition urls (s : list sem) : list string :=
  flat_map (fun x => match x with VStep u _ | VKey u _ _ => [u] | _ => [] end) s.

(** The namespace map in which the result is read; without another node, module names are
    used. *)
Definition to_map (to : option nsmap) : nsmap := match to with None => [] | Some m => m end.

(** There is a prefix for [u]. *)
Definition Reach (T : table) (to : option nsmap) (u : string) : Prop :=
  match to with
  | None => In u (map e_url T)
  | Some m => exists p, In (Some p, u) m
  end.

(** The prefixes that may be used are identifiers. *)
Definition Prefixes (T : table) (to : option nsmap) : Prop :=
  match to with
  | None => forall e, In e T -> YangId (e_name e)
  | Some m => forall p u, In (Some p, u) m -> YangId p
  end.

(** Every name has a prefix and every literal is quoted by apostrophes. *)
Definition Canon (i : item) : Prop :=
  match i with
  | Step p _ => p <> None
  | Pred k q _ => match k with None => True | Some (p, _) => p <> None end /\ q = apos
  | Nth _ => False
  end.
