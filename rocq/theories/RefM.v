(** Values of type identityref and instance-identifier: /repo/src/ncdiff/ref.py, and
    their use in /repo/src/ncdiff/calculator.py. No proofs in this file. *)
From Coq Require Import String Ascii List Bool Arith.
From Verif Require Import Base TagM.
Import ListNotations.
Open Scope string_scope.
Open Scope list_scope.
Open Scope nat_scope.

(** [element.nsmap] of lxml: prefix ([None] for the default namespace) to URL, in the
    order of iteration. *)
Definition nsmap := list (option string * string).

(** The parts of an lxml element that ref.py looks at: tag in [{url}name] notation,
    namespace map, text. *)
Record rnode := RNode { r_tag : string; r_nsmap : nsmap; r_text : option string }.

(** [self.node_url] of [__init__], ref.py:36. *)
Definition node_url (T : table) (x : rnode) : res string :=
  let! (u, _) := convert_tag T "" (r_tag x) LXML_ETREE YTOOL in Ok u.

(** [{ns[0]: ns[2] for ns in namespaces}[name]]: the last entry wins, ref.py:67. *)
Definition name_to_url (T : table) (name : string) : option string :=
  option_map e_url (find (fun e => String.eqb (e_name e) name) (rev T)).

(** The branch for a prefixed id, the same in both classes, ref.py:62-72 and
    ref.py:190-200. [None] if there is no colon. *)
Definition parse_prefixed (T : table) (m : nsmap) (id : string) : res (option string * string) :=
  match re_colon id with
  | Some (p, name) =>
      match assoc ostr_eqb (Some p) m with
      | Some u => Ok (Some u, name)
      | None =>
          match name_to_url T p with
          | Some u => Ok (Some u, name)
          | None => Err ConfigError
          end
      end
  | None => Ok (None, id)
  end.

(** [url_to_prefix.get(url)] for [url_to_prefix = {v: k for k, v in nsmap.items()}]: the
    last pair wins, ref.py:99-100. *)
Definition url_to_prefix (m : nsmap) (url : string) : option (option string) :=
  option_map fst (find (fun kv => String.eqb (snd kv) url) (rev m)).

(** ** IdentityRef *)

(** [parse_prefixed_id], ref.py:61-80. *)
Definition id_parse (T : table) (m : nsmap) (id : string) : res (string * string) :=
  let! (u, name) := parse_prefixed T m id in
  match u with
  | Some u => Ok (u, name)
  | None => match assoc ostr_eqb None m with
            | Some u => Ok (u, name)
            | None => Err ConfigError
            end
  end.

(** [compose_prefixed_id], ref.py:82-108. Simplified: the bookkeeping of [_default_ns]
    is left out; it is in DefNsM.v and changes no returned string (C89_text). *)
Definition id_compose (T : table) (nurl url id : string) (to : option nsmap) : res string :=
  match to with
  | None =>
      if String.eqb url nurl then Ok id
      else let! n := convert_ns T url KUrl KName in Ok (n ++ ":" ++ id)%string
  | Some m =>
      match url_to_prefix m url with
      | Some None => Ok id
      | Some (Some p) => Ok (p ++ ":" ++ id)%string
      | None => Err ConfigError
      end
  end.

(** [IdentityRef(device, node, to_node).convert(node.text)], ref.py:40-53,110-112. *)
Definition id_convert (T : table) (x : rnode) (to : option nsmap) : res string :=
  let! nurl := node_url T x in
  match r_text x with
  | None => Err ConfigError
  | Some t =>
      let! (u, id) := id_parse T (r_nsmap x) t in
      id_compose T nurl u id to
  end.

(** The [default] property, ref.py:48-53. *)
Definition id_default (T : table) (x : rnode) : res string := id_convert T x None.

(** ** InstanceIdentifier *)

(** A piece of [str_list]: text, phase, converted text, ref.py:166. *)
Definition piece : Type := list ascii * nat * list ascii.
Definition p_str (p : piece) := let '(s, _, _) := p in s.
Definition p_phase (p : piece) := let '(_, n, _) := p in n.
Definition p_conv (p : piece) := let '(_, _, c) := p in c.

(** [string], ref.py:186-188. *)
Definition str_of (phase : nat) (l : list piece) : list ascii :=
  flat_map p_str (filter (fun p => (p_phase p =? 0) || (phase <=? p_phase p)) l).

Definition nonempty (p : piece) : bool := match p_str p with [] => false | _ => true end.

(** [this_piece], ref.py:272-278: Python slices are [firstn] and [skipn]. *)
Definition this_piece (p : piece) (s e : nat) (conv : list ascii) (phase : nat) : list piece :=
  let str := p_str p in
  filter nonempty
    [(firstn s str, p_phase p, firstn s str);
     (firstn (e - s) (skipn s str), phase, conv);
     (skipn e str, p_phase p, skipn e str)].

(** [cut], ref.py:271-298. *)
Fixpoint cut_at (pos s e : nat) (conv : list ascii) (phase : nat) (l : list piece) : list piece :=
  match l with
  | [] => []
  | p :: r =>
      if (p_phase p =? 0) || (p_phase p =? phase) then
        let fin := pos + length (p_str p) in
        if (pos <=? s) && (e <=? fin) then this_piece p (s - pos) (e - pos) conv phase ++ r
        else p :: cut_at fin s e conv phase r
      else p :: cut_at pos s e conv phase r
  end.
Definition cut := cut_at 0.

(** [string[s:e]] for [s <= e]. *)
Definition slice (s e : nat) (l : list ascii) : list ascii := firstn (e - s) (skipn s l).

Definition apos : ascii := "'"%char.
Definition dquo : ascii := Ascii.ascii_of_nat 34.

(** Every apostrophe is doubled, the first [re.sub] of ref.py:303. *)
Definition double_apos (l : list ascii) : list ascii :=
  flat_map (fun c => if Ascii.eqb c apos then [apos; apos] else [c]) l.

(** Every pair of double quotes becomes one, the second [re.sub], ref.py:304. *)
Fixpoint single_dquo (l : list ascii) : list ascii :=
  match l with
  | [] => []
  | c :: r =>
      if Ascii.eqb c dquo then
        match r with
        | d :: r' => if Ascii.eqb d dquo then dquo :: single_dquo r' else c :: single_dquo r
        | [] => [c]
        end
      else c :: single_dquo r
  end.

(** [convert_literal], ref.py:300-304. *)
Definition convert_literal (lit : list ascii) : list ascii :=
  [apos] ++ single_dquo (double_apos (removelast (tl lit))) ++ [apos].

(** The local variables of [parse_quote] and [self.str_list]. *)
Record qstate := QState {
  q_pieces : list piece; q_start : option nat; q_esc : option nat; q_open : ascii }.

(** One round of the loop of [parse_quote], ref.py:310-338. [next] is [string[idx+1]] if
    there is one. *)
Definition quote_step (whole : list ascii) (idx : nat) (c : ascii) (next : option ascii)
  (st : qstate) : res qstate :=
  let '(QState ps start esc op) := st in
  match start with
  | None => Ok (if Ascii.eqb c "=" then QState ps (Some (S idx)) esc op else st)
  | Some b =>
      if idx =? b then
        if Ascii.eqb c apos || Ascii.eqb c dquo then Ok (QState ps start esc c)
        else Err ConfigError
      else if b <? idx then
        if Ascii.eqb c op then
          if match next with Some d => Ascii.eqb d op | None => false end
          then Ok (QState ps start (Some idx) op)
          else if match esc with Some s => Nat.even (S idx - s) | None => false end
          then Ok (QState ps start None op)
          else
            let lit := slice b (S idx) whole in
            let conv := if Ascii.eqb op dquo then convert_literal lit else lit in
            Ok (QState (cut b (S idx) conv 1 ps) None esc op)
        else Ok st
      else Ok st
  end.

Fixpoint quote_loop (whole : list ascii) (idx : nat) (rest : list ascii) (st : qstate) : res qstate :=
  match rest with
  | [] => Ok st
  | c :: r =>
      let! st' := quote_step whole idx c (hd_error r) st in
      quote_loop whole (S idx) r st'
  end.

(** [parse_quote], ref.py:306-342. *)
Definition parse_quote (ps : list piece) : res (list piece) :=
  let whole := str_of 1 ps in
  let! st := quote_loop whole 0 whole (QState ps None None apos) in
  match q_start st with
  | None => Ok (q_pieces st)
  | Some _ => Err ConfigError
  end.

(** One round of the loop of [parse_square_bracket], ref.py:347-371. The branches for
    ['.'] and for numbers cut the same text as their neighbours and are one
    branch here. [b] is [start_idx], [idx] the position of ['\]']. *)
Definition bracket_cuts (whole : list ascii) (b idx : nat) (ps : list piece) : list piece :=
  let e := S idx in
  let sub := slice b e whole in
  let ps := cut b (S b) ["["%char] 2 ps in
  let ps := cut (e - 1) e ["]"%char] 2 ps in
  match nth_error sub (length sub - 2) with
  | Some c =>
      if Ascii.eqb c "=" then
        let ps := cut (e - 2) (e - 1) ["="%char] 2 ps in
        cut (S b) (e - 2) (slice 1 (length sub - 2) sub) 2 ps
      else cut (S b) (e - 1) (slice 1 (length sub - 1) sub) 2 ps
  | None => ps
  end.

Fixpoint bracket_loop (whole : list ascii) (idx : nat) (rest : list ascii)
  (ps : list piece) (start : option nat) : list piece * option nat :=
  match rest with
  | [] => (ps, start)
  | c :: r =>
      match start with
      | None => bracket_loop whole (S idx) r ps (if Ascii.eqb c "[" then Some idx else None)
      | Some b =>
          if Ascii.eqb c "]" then bracket_loop whole (S idx) r (bracket_cuts whole b idx ps) None
          else bracket_loop whole (S idx) r ps start
      end
  end.

(** [parse_square_bracket], ref.py:344-375. *)
Definition parse_square_bracket (ps : list piece) : res (list piece) :=
  let whole := str_of 2 ps in
  let '(ps', start) := bracket_loop whole 0 whole ps None in
  match start with None => Ok ps' | Some _ => Err ConfigError end.

(** [char in SEPARATORS], ref.py:378. *)
Definition is_sep (c : ascii) : bool := Ascii.eqb c "." || Ascii.eqb c "/".

(** [parse_element], ref.py:377-398. The branches for ['*'] cut the same text. *)
Fixpoint element_loop (whole : list ascii) (idx : nat) (rest : list ascii)
  (ps : list piece) (start : option nat) : list piece :=
  match rest with
  | [] => match start with
          | None => ps
          | Some b => cut b idx (slice b idx whole) 3 ps
          end
  | c :: r =>
      match start with
      | None => element_loop whole (S idx) r ps (if is_sep c then None else Some idx)
      | Some b =>
          if is_sep c
          then element_loop whole (S idx) r (cut b idx (slice b idx whole) 3 ps) None
          else element_loop whole (S idx) r ps start
      end
  end.
Definition parse_element (ps : list piece) : list piece :=
  let whole := str_of 3 ps in element_loop whole 0 whole ps None.

(** [InstanceIdentifier.compose_prefixed_id], ref.py:206-227. *)
Definition iid_compose (T : table) (url id : string) (to : option nsmap) : res string :=
  match to with
  | None => let! n := convert_ns T url KUrl KName in Ok (n ++ ":" ++ id)%string
  | Some m =>
      match url_to_prefix (filter (fun kv => match fst kv with None => false | _ => true end) m) url with
      | Some (Some p) => Ok (p ++ ":" ++ id)%string
      | _ => Err ConfigError
      end
  end.

Definition to_s (l : list ascii) : string := string_of_list_ascii l.
Definition of_s (s : string) : list ascii := list_ascii_of_string s.

(** Pieces that [convert_str_list] copies, ref.py:234-239. *)
Definition is_punct (l : list ascii) : bool :=
  match l with
  | [c] => Ascii.eqb c "[" || Ascii.eqb c "]" || Ascii.eqb c "=" || Ascii.eqb c "."
  | _ => false
  end.

(** [convert_str_list], ref.py:229-269: [d] is [default_url]. A piece with a phase above
    3 would be dropped; none is ever made. *)
Fixpoint convert_pieces (T : table) (m : nsmap) (to : option nsmap) (d : option string)
  (l : list piece) : res (list piece) :=
  match l with
  | [] => Ok []
  | p :: r =>
      if p_phase p <=? 1 then
        let! r' := convert_pieces T m to d r in Ok (p :: r')
      else if p_phase p =? 2 then
        if is_punct (p_str p) then
          let! r' := convert_pieces T m to d r in Ok ((p_str p, p_phase p, p_str p) :: r')
        else
          let! (u, id) := parse_prefixed T m (to_s (p_str p)) in
          match (match u with Some _ => u | None => d end) with
          | None => Err ConfigError
          | Some url =>
              let! c := iid_compose T url id to in
              let! r' := convert_pieces T m to d r in
              Ok ((p_str p, p_phase p, of_s c) :: r')
          end
      else if p_phase p =? 3 then
        let! (u, id) := parse_prefixed T m (to_s (p_str p)) in
        match (match u with Some _ => u | None => d end) with
        | None => Err ConfigError
        | Some url =>
            let! c := iid_compose T url id to in
            let! r' := convert_pieces T m to (Some url) r in
            Ok ((p_str p, p_phase p, of_s c) :: r')
        end
      else convert_pieces T m to d r
  end.

(** All four phases, ref.py:169-190: the final [str_list]. *)
Definition iid_pieces (T : table) (m : nsmap) (to : option nsmap) (text : string) : res (list piece) :=
  let! ps := parse_quote [(of_s text, 0, of_s text)] in
  let! ps := parse_square_bracket ps in
  convert_pieces T m to None (parse_element ps).

(** [InstanceIdentifier(device, node, to_node).converted] and [.default], with the
    check of [_parse_text] and [_merge_text] that there is a text. *)
Definition iid_convert (T : table) (x : rnode) (to : option nsmap) : res string :=
  let! _ := node_url T x in
  match r_text x with
  | None => Err TypeError
  | Some t =>
      let! ps := iid_pieces T (r_nsmap x) to t in
      Ok (to_s (flat_map p_conv ps))
  end.

(** ** Use in calculator.py *)

(** The [datatype] attribute of a schema node, as far as calculator.py:405-416 looks at
    it. [DContainer] stands for a container, whose text is ignored. *)
Inductive datatype := DIdentity | DInstance | DContainer | DPlain.

(** [_parse_text], calculator.py:380-417. *)
Definition ref_text (T : table) (dt : datatype) (x : rnode) : res (option string) :=
  match r_text x with
  | None => Ok None
  | Some t =>
      match dt with
      | DIdentity => let! s := id_convert T x None in Ok (Some s)
      | DInstance => let! s := iid_convert T x None in Ok (Some s)
      | DContainer => Ok None
      | DPlain => Ok (Some t)
      end
  end.

(** [_same_text], calculator.py:419-442. *)
Definition ref_same (T : table) (dt : datatype) (x y : rnode) : res bool :=
  match r_text x, r_text y with
  | None, None => Ok true
  | _, _ =>
      let! a := ref_text T dt x in
      let! b := ref_text T dt y in
      Ok (ostr_eqb a b)
  end.

(** [_merge_text], calculator.py:444-482: the new text of [to]. *)
Definition ref_merge (T : table) (dt : datatype) (from to : rnode) : res (option string) :=
  match r_text from with
  | None => Ok None
  | Some t =>
      match dt with
      | DIdentity => let! s := id_convert T from (Some (r_nsmap to)) in Ok (Some s)
      | DInstance => let! s := iid_convert T from (Some (r_nsmap to)) in Ok (Some s)
      | _ => Ok (Some t)
      end
  end.

(** The key values by which [_pair_children] ([build_index_tuple],
    calculator.py:156-163,193-195) identifies a list entry: the schema
    node handed to [_parse_text] is that of the list, which has no datatype, so
    the texts of the key leaves are taken as they are. *)
Definition pair_key (T : table) (keys : list rnode) : res (list (option string)) :=
  mapM (ref_text T DPlain) keys.

(** [_is_peer], calculator.py:322-358, given the key leaves of the two entries. *)
Fixpoint peer_keys (T : table) (a b : list (datatype * rnode)) : res bool :=
  match a, b with
  | (dt, x) :: r, (_, y) :: s =>
      let! same := ref_same T dt x y in
      if same then peer_keys T r s else Ok false
  | _, _ => Ok true
  end.
