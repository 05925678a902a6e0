(** Namespace tables and the notations of node tags: /repo/src/ncdiff/composer.py
    (class Tag) and the conversions of /repo/src/ncdiff/manager.py:821-1009.
    No proofs in this file. *)
From Coq Require Import String Ascii List Bool Arith DecimalString DecimalNat.
From Verif Require Import Base.
Import ListNotations.
Open Scope string_scope.
Open Scope list_scope.

(** ** Regular expressions of the notations *)

Definition newline : ascii := Ascii.ascii_of_nat 10.

Fixpoint has (c : ascii) (s : string) : bool :=
  match s with
  | EmptyString => false
  | String a r => Ascii.eqb a c || has c r
  end.

(** The part of a subject that ['^...(.+)$'] can cover: [.] does not match a
    newline and [$] also matches before a newline at the very end. *)
Fixpoint line (s : string) : option string :=
  match s with
  | EmptyString => Some EmptyString
  | String a r =>
      if Ascii.eqb a newline then match r with EmptyString => Some EmptyString | _ => None end
      else option_map (String a) (line r)
  end.

(** The last occurrence of [c] that has something behind it. *)
Fixpoint split_last (c : ascii) (s : string) : option (string * string) :=
  match s with
  | EmptyString => None
  | String a r =>
      match split_last c r with
      | Some (b, e) => Some (String a b, e)
      | None => if Ascii.eqb a c
                then match r with EmptyString => None | _ => Some (EmptyString, r) end
                else None
      end
  end.

(** [Tag.COLON[0]] = ['^(.+):(.+)$'], composer.py:44-45. *)
Definition re_colon (s : string) : option (string * string) :=
  match line s with
  | Some (String a r) =>
      match split_last ":" r with
      | Some (b, e) => Some (String a b, e)
      | None => None
      end
  | _ => None
  end.

(** [Tag.BRACE[0]] = ['^\{(.+)\}(.+)$'], composer.py:42-43. *)
Definition re_brace (s : string) : option (string * string) :=
  match line s with
  | Some (String o (String a r)) =>
      if Ascii.eqb o "{" then
        match split_last "}" r with
        | Some (b, e) => Some (String a b, e)
        | None => None
        end
      else None
  | _ => None
  end.

(** ** Notations, composer.py:20-52 *)

Inductive kind := KName | KPrefix | KUrl.
Inductive omit := NoOmit | OmitByInheritance | OmitByModule.
Inductive style := Brace | Colon.
Definition notation : Type := kind * omit * style.

Definition YTOOL : notation := (KPrefix, OmitByModule, Colon).
Definition XPATH : notation := (KPrefix, OmitByInheritance, Colon).
Definition LXML_XPATH : notation := (KPrefix, NoOmit, Colon).
Definition LXML_ETREE : notation := (KUrl, NoOmit, Brace).
Definition JSON_NAME : notation := (KName, OmitByInheritance, Colon).
Definition JSON_PREFIX : notation := (KPrefix, OmitByInheritance, Colon).

(** [re.search(src[2][0], tag)] *)
Definition re_style (st : style) : string -> option (string * string) :=
  match st with Brace => re_brace | Colon => re_colon end.

(** [dst[2][1].format(ns, name)], composer.py:43,45. *)
Definition fmt_style (st : style) (ns name : string) : string :=
  match st with
  | Brace => ("{" ++ ns ++ "}" ++ name)%string
  | Colon => (ns ++ ":" ++ name)%string
  end.

(** [split_tag], composer.py:13-18. *)
Definition split_tag (st : style) (tag : string) : string * string :=
  match re_style st tag with
  | Some p => p
  | None => ("", tag)
  end.

(** ** The namespace table *)

(** An entry of [ModelDevice.namespaces]: model name, prefix, URL
    (manager.py:115-129). Simplified: every module has a namespace statement. *)
Record entry := Entry { e_name : string; e_prefix : string; e_url : string }.
Definition table := list entry.

Definition field (k : kind) (e : entry) : string :=
  match k with KName => e_name e | KPrefix => e_prefix e | KUrl => e_url e end.

(** [special_prefixes], manager.py:17-28. *)
Definition nc_url := "urn:ietf:params:xml:ns:netconf:base:1.0".
Definition yang_url := "urn:ietf:params:xml:ns:yang:1".
Definition tailf_url := "http://tail-f.com/ns/netconf/params/1.1".
Definition nc_event_url := "urn:ietf:params:xml:ns:netconf:notification:1.0".
Definition specials : table :=
  [Entry "" "nc" nc_url; Entry "" "yang" yang_url;
   Entry "" "tailf" tailf_url; Entry "" "ncEvent" nc_event_url].

(** [[i for i in table if i[k] == ns]] *)
Definition matches (k : kind) (ns : string) (T : table) : table :=
  filter (fun e => String.eqb (field k e) ns) T.

(** [possible_part1], manager.py:868-877. *)
Definition possible_part1 (T : table) (k : kind) : list string :=
  match k with
  | KName => map e_name T
  | KPrefix => map e_prefix T ++ map e_prefix specials
  | KUrl => map e_url T ++ map e_url specials
  end.

(** [split_tag] inside [convert_tag], manager.py:879-889. *)
Definition split_known (T : table) (src : notation) (tag : string) : res (string * string) :=
  let '(k, _, st) := src in
  match re_style st tag with
  | Some (ns, name) =>
      if mem String.eqb ns (possible_part1 T k) then Ok (ns, name) else Err ValueError
  | None => Ok ("", tag)
  end.

(** [format_tag], manager.py:891-895. *)
Definition format_tag (dst : notation) (ns name : string) : string :=
  let '(_, _, st) := dst in
  match ns with EmptyString => name | _ => fmt_style st ns name end.

(** [convert] inside [convert_tag], manager.py:897-912. *)
Definition convert_part (T : table) (ks kd : kind) (ns : string) : res string :=
  match matches ks ns T with
  | _ :: _ :: _ => Err ModelError
  | [e] => Ok (field kd e)
  | [] =>
      match ks, kd with
      | KName, _ | _, KName => Err ValueError
      | _, _ =>
          match matches ks ns specials with
          | [e] => Ok (field kd e)
          | _ => Err ValueError
          end
      end
  end.

(** [convert_tag], manager.py:821-934. The last [else] (unknown omit value) cannot
    be reached with the constants of class Tag. *)
Definition convert_tag (T : table) (default_ns tag : string) (src dst : notation)
  : res (string * string) :=
  let '(ks, os, _) := src in
  let '(kd, od, _) := dst in
  let! (ns0, name) := split_known T src tag in
  let! ns :=
    match os, ns0 with
    | NoOmit, EmptyString => Err ValueError
    | _, EmptyString => Ok default_ns
    | _, _ => Ok ns0
    end in
  match od with
  | NoOmit =>
      let! p := convert_part T ks kd ns in Ok (ns, format_tag dst p name)
  | OmitByInheritance | OmitByModule =>
      if String.eqb default_ns ns then Ok (ns, format_tag dst "" name)
      else let! p := convert_part T ks kd ns in Ok (ns, format_tag dst p name)
  end.

(** [convert_ns], manager.py:936-970. *)
Definition convert_ns (T : table) (ns : string) (src dst : kind) : res string :=
  match matches src ns T with
  | [] => Err ValueError
  | _ :: _ :: _ => Err ValueError
  | [e] => Ok (field dst e)
  end.

(** ** [_get_ns], manager.py:972-1009 *)

(** [get_prefix], manager.py:989-995. *)
Definition get_prefix (T : table) (url : string) : option string :=
  match find (fun e => String.eqb (e_url e) url) specials with
  | Some e => Some (e_prefix e)
  | None => option_map e_prefix (find (fun e => String.eqb url (e_url e)) T)
  end.

(** ['ns{:02d}'.format(i)] *)
Definition ns_number (i : nat) : string :=
  let d := Nat.to_uint i in
  ("ns" ++ NilEmpty.string_of_uint (if Nat.ltb i 10 then Decimal.D0 d else d))%string.

(** The dict [ret] after the loop: known prefixes, and numbered ones for the rest in
    the order of iteration, manager.py:1001-1008. *)
Fixpoint number (i : nat) (l : list (string * option string)) : list (string * string) :=
  match l with
  | [] => []
  | (u, Some p) :: r => (u, p) :: number i r
  | (u, None) :: r => (u, ns_number i) :: number (S i) r
  end.

(** [_get_ns] given the set of URLs of the reply. [urls] is that set in the order in
    which Python iterates over it: the theorems hold for every order. The result
    is the dict prefix to URL; a later pair overwrites an earlier one. *)
Definition get_ns (T : table) (urls : list string) : list (string * string) :=
  fold_left (fun d '(u, p) => dset String.eqb p u d)
            (number 0 (map (fun u => (u, get_prefix T u)) urls)) [].
