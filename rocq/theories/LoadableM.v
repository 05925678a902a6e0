(** Which models a device offers: [ModelDevice.models_loadable],
    /repo/src/ncdiff/manager.py:131-212. No proofs in this file. *)
From Coq Require Import String Ascii List Bool Arith.
From Verif Require Import Base XmlM TagM RunningM.
Import ListNotations.
Open Scope string_scope.
Open Scope list_scope.
Open Scope nat_scope.

(** What comes of a request: an exception, a reply that is not ok, or an ok reply with its
    root element; [reply.data] is inside that element. *)
Inductive answer := Raised | NotOk | Replied (root : xml).
(** The requests of manager.py:156-157 and 183-184 *)
Inductive req := AskMonitoring | AskLibrary.
(** The device: capabilities and how it answers *)
Record server := Server { sv_caps : list string; sv_answer : req -> answer }.

(** [xml_.NETCONF_MONITORING_NS] of ncclient, and manager.py:136-137 *)
Definition monitoring_ns := "urn:ietf:params:xml:ns:yang:ietf-netconf-monitoring".
Definition yang_lib := "urn:ietf:params:netconf:capability:yang-library".
Definition yang_lib_1_0 := (yang_lib ++ ":1.0")%string.
(** [[c for c in ... if c[:len(p)] == p]], manager.py:150-151, 177-178 *)
Definition has_cap (p : string) (caps : list string) : bool := existsb (starts p) caps.

(** [xpath] of an absolute path of element names, in document order *)
Fixpoint select (ps : list string) (l : list xml) : list xml :=
  match ps with
  | [] => l
  | [p] => filter (fun x => String.eqb (xtag x) p) l
  | p :: r => select r (flat_map xkids (filter (fun x => String.eqb (xtag x) p) l))
  end.
Definition qn (u n : string) : string := ("{" ++ u ++ "}" ++ n)%string.
(** manager.py:152-154, 179-181 *)
Definition monitoring_path : list string :=
  [qn nc_url "rpc-reply"; qn nc_url "data"; qn monitoring_ns "netconf-state"; qn monitoring_ns "schemas"; qn monitoring_ns "schema"; qn monitoring_ns "identifier"].
Definition library_path : list string :=
  [qn nc_url "rpc-reply"; qn nc_url "data"; qn yang_lib "modules-state"; qn yang_lib "module"; qn yang_lib "name"].

(** [sorted] of strings. Texts are UTF-8 here; the order of bytes is that of code points. *)
Fixpoint insert (s : string) (l : list string) : list string :=
  match l with
  | [] => [s]
  | x :: r => if String.leb s x then s :: l else x :: insert s r
  end.
Definition sort (l : list string) : list string := fold_right insert [] l.
(** [sorted] of texts: None cannot be compared with anything. *)
Fixpoint all_some (l : list (option string)) : option (list string) :=
  match l with
  | [] => Some []
  | Some s :: r => match all_some r with Some l' => Some (s :: l') | None => None end
  | None :: _ => None
  end.
Definition sorted_texts (l : list (option string)) : res (list (option string)) :=
  match l, all_some l with
  | [x], _ => Ok [x]
  | _, Some l' => Ok (map Some (sort l'))
  | _, None => Err TypeError
  end.

(** One attempt, manager.py:155-172, 182-199: [None] means that the next way is tried. *)
Definition attempt (path : list string) (a : answer) : option (list (option string)) :=
  match a with
  | Raised | NotOk => None
  | Replied x => match sorted_texts (map xtext (select path [x])) with Ok l => Some l | Err _ => None end
  end.

(** [[a-zA-Z0-9-]] *)
Definition name_char (c : ascii) : bool :=
  let n := nat_of_ascii c in
  (Nat.leb 97 n && Nat.leb n 122) || (Nat.leb 65 n && Nat.leb n 90) || (Nat.leb 48 n && Nat.leb n 57) || Nat.eqb n 45.
(** The expression at one position: [module=([a-zA-Z0-9-]+)\&{0,1}], the group *)
Definition module_here (s : string) : option string :=
  if starts "module=" s then
    match fst (span name_char (sdrop 7 s)) with EmptyString => None | n => Some n end
  else None.
(** [re.search], manager.py:207 *)
Fixpoint module_in (s : string) : option string :=
  match module_here s with
  | Some n => Some n
  | None => match s with String _ r => module_in r | EmptyString => None end
  end.
(** manager.py:203-211 *)
Definition from_caps (caps : list string) : list string :=
  sort (flat_map (fun c => match module_in c with Some n => [n] | None => [] end) caps).

(** [models_loadable], manager.py:131-212: the value, the requests made, and the value kept in
    [_models_loadable]. *)
Definition models_loadable (sv : server) (kept : option (list (option string)))
    : list (option string) * list req * option (list (option string)) :=
  match kept with
  | Some l => (l, [], kept)
  | None =>
      let mon := has_cap monitoring_ns (sv_caps sv) in
      let lib := has_cap yang_lib_1_0 (sv_caps sv) in
      match (if mon then attempt monitoring_path (sv_answer sv AskMonitoring) else None) with
      | Some l => (l, [AskMonitoring], Some l)
      | None =>
          let q1 := if mon then [AskMonitoring] else [] in
          match (if lib then attempt library_path (sv_answer sv AskLibrary) else None) with
          | Some l => (l, q1 ++ [AskLibrary], Some l)
          | None => let l := map Some (from_caps (sv_caps sv)) in (l, q1 ++ (if lib then [AskLibrary] else []), Some l)
          end
      end
  end.
