(** The namespaces of the default form of a reference: [default_ns] and the bookkeeping of
    [_default_ns] in /repo/src/ncdiff/ref.py. No proofs in this file. *)
From Coq Require Import String Ascii List Bool Arith.
From Verif Require Import Base TagM RefM.
Import ListNotations.
Open Scope string_scope.
Open Scope list_scope.
Open Scope nat_scope.

(** [ns[key] = url] for a Python dict: the value of a key that is there is replaced, another
    key comes last. *)
Fixpoint ns_set (k : option string) (u : string) (m : nsmap) : nsmap :=
  match m with
  | [] => [(k, u)]
  | (k', u') :: r => if ostr_eqb k k' then (k', u) :: r else (k', u') :: ns_set k u r
  end.

(** [url_to_name], ref.py:83-89 and ref.py:207-213: the name of the module, and the dict
    [ns] afterwards. *)
Definition url_to_name (T : table) (url : string) (ns : nsmap) : res (string * nsmap) :=
  let! n := convert_ns T url KUrl KName in
  Ok (n, if mem String.eqb url (map snd ns) then ns else ns_set (Some n) url ns).

(** [IdentityRef.compose_prefixed_id] with [to_node=None], ref.py:91-96: the text and
    [_default_ns] afterwards. *)
Definition id_compose_ns (T : table) (nurl url id : string) (ns : nsmap) : res (string * nsmap) :=
  if String.eqb url nurl then Ok (id, ns)
  else let! (n, ns') := url_to_name T url ns in Ok ((n ++ ":" ++ id)%string, ns').

(** The [default] property of an identityref, ref.py:47-53, with [_default_ns] [ns] before
    and after. *)
Definition id_default_from (T : table) (x : rnode) (ns : nsmap) : res (string * nsmap) :=
  let! nurl := node_url T x in
  match r_text x with
  | None => Err ConfigError
  | Some t => let! (u, id) := id_parse T (r_nsmap x) t in id_compose_ns T nurl u id ns
  end.

(** The [default_ns] property of an identityref, ref.py:55-59. *)
Definition id_default_ns (T : table) (x : rnode) : res nsmap :=
  let! nurl := node_url T x in
  let! (_, ns) := id_default_from T x [(None, nurl)] in Ok ns.

(** [InstanceIdentifier.compose_prefixed_id] with [to_node=None], ref.py:215-217. *)
Definition iid_compose_ns (T : table) (url id : string) (ns : nsmap) : res (string * nsmap) :=
  let! (n, ns') := url_to_name T url ns in Ok ((n ++ ":" ++ id)%string, ns').

(** [convert_str_list] with [to_node=None], ref.py:229-269: [d] is [default_url]. *)
Fixpoint convert_pieces_ns (T : table) (m : nsmap) (d : option string) (l : list piece) (ns : nsmap) :
  res (list piece * nsmap) :=
  match l with
  | [] => Ok ([], ns)
  | p :: r =>
      if p_phase p <=? 1 then
        let! (r', ns') := convert_pieces_ns T m d r ns in Ok (p :: r', ns')
      else if p_phase p =? 2 then
        if is_punct (p_str p) then
          let! (r', ns') := convert_pieces_ns T m d r ns in Ok ((p_str p, p_phase p, p_str p) :: r', ns')
        else
          let! (u, id) := parse_prefixed T m (to_s (p_str p)) in
          match (match u with Some _ => u | None => d end) with
          | None => Err ConfigError
          | Some url =>
              let! (c, ns1) := iid_compose_ns T url id ns in
              let! (r', ns') := convert_pieces_ns T m d r ns1 in
              Ok ((p_str p, p_phase p, of_s c) :: r', ns')
          end
      else if p_phase p =? 3 then
        let! (u, id) := parse_prefixed T m (to_s (p_str p)) in
        match (match u with Some _ => u | None => d end) with
        | None => Err ConfigError
        | Some url =>
            let! (c, ns1) := iid_compose_ns T url id ns in
            let! (r', ns') := convert_pieces_ns T m (Some url) r ns1 in
            Ok ((p_str p, p_phase p, of_s c) :: r', ns')
        end
      else convert_pieces_ns T m d r ns
  end.

(** The [default] property of an instance-identifier, ref.py:177-184, with [_default_ns]
    [ns] before and after. *)
Definition iid_default_from (T : table) (x : rnode) (ns : nsmap) : res (string * nsmap) :=
  let! _ := node_url T x in
  match r_text x with
  | None => Err TypeError
  | Some t =>
      let! ps := parse_quote [(of_s t, 0, of_s t)] in
      let! ps := parse_square_bracket ps in
      let! (ps, ns') := convert_pieces_ns T (r_nsmap x) None (parse_element ps) ns in
      Ok (to_s (flat_map p_conv ps), ns')
  end.

(** The [default_ns] property of an instance-identifier, inherited, ref.py:55-59. *)
Definition iid_default_ns (T : table) (x : rnode) : res nsmap :=
  let! nurl := node_url T x in
  let! (_, ns) := iid_default_from T x [(None, nurl)] in Ok ns.

(** The [default] property after [__init__], which sets [_default_ns] to [{}],
    ref.py:37. *)
Definition default_of (T : table) (dt : datatype) (x : rnode) : res string :=
  match dt with
  | DIdentity => let! (s, _) := id_default_from T x [] in Ok s
  | _ => let! (s, _) := iid_default_from T x [] in Ok s
  end.
