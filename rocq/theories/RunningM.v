(** Model of /repo/src/ncdiff/runningconfig.py: diff of two running configs.
    Texts are lists of lines: [splitlines] of lines that were joined by newlines
    gives the lines back. Simplified: a line contains no line separator, and
    whitespace means ASCII whitespace. *)
From Coq Require Import String Ascii List Bool Arith ZArith Lia.
From Verif Require Import Base.
Import ListNotations.
Open Scope string_scope.
Open Scope list_scope.
Open Scope nat_scope.

(** ** Strings *)

(** [str.isspace] on ASCII *)
Definition is_ws (c : ascii) : bool :=
  let n := nat_of_ascii c in (9 <=? n) && (n <=? 13) || (28 <=? n) && (n <=? 32).

Fixpoint lstrip (s : string) : string :=
  match s with
  | EmptyString => EmptyString
  | String c r => if is_ws c then lstrip r else s
  end.
Fixpoint rstrip (s : string) : string :=
  match s with
  | EmptyString => EmptyString
  | String c r => match rstrip r with
                  | EmptyString => if is_ws c then EmptyString else String c EmptyString
                  | r' => String c r'
                  end
  end.
Definition strip (s : string) : string := rstrip (lstrip s).

(** [s[n:]] and [s[:n]] *)
Fixpoint sdrop (n : nat) (s : string) : string :=
  match n, s with
  | S m, String _ r => sdrop m r
  | _, _ => s
  end.
Fixpoint stake (n : nat) (s : string) : string :=
  match n, s with
  | S m, String c r => String c (stake m r)
  | _, _ => EmptyString
  end.
(** [' ' * n] *)
Fixpoint spaces (n : nat) : string :=
  match n with O => EmptyString | S m => String " " (spaces m) end.
(** [len(re.search('^ *', s).group(0))] *)
Fixpoint indentation (s : string) : nat :=
  match s with
  | String " " r => S (indentation r)
  | _ => 0
  end.
(** [s[:len(p)] == p] *)
Definition starts (p s : string) : bool := String.eqb (stake (String.length p) s) p.
(** [s.replace(a, b)]; [n] bounds the number of steps *)
Fixpoint replace_str (n : nat) (a b s : string) : string :=
  match n, s with
  | S m, String c r => if starts a s then (b ++ replace_str m a b (sdrop (String.length a) s))%string
                       else String c (replace_str m a b r)
  | _, _ => s
  end.

(** The regular expressions of runningconfig.py:63-186 are sequences of these pieces,
    anchored at the start. None needs backtracking. *)
Inductive piece :=
| PSpaces                 (* [ *] *)
| PLit (s : string)
| PWord                   (* \S+ *)
| PDigits                 (* \d+ or [0-9]+ *)
| PDigit                  (* \d *)
| PSpaceOrEnd.            (* ( |$) *)
Fixpoint span (p : ascii -> bool) (s : string) : string * string :=
  match s with
  | String c r => if p c then let '(a, b) := span p r in (String c a, b) else (EmptyString, s)
  | EmptyString => (EmptyString, s)
  end.
Definition is_digit (c : ascii) : bool := let n := nat_of_ascii c in (48 <=? n) && (n <=? 57).
(** [re.search]: the matched text, [m.group(0)] *)
Fixpoint re_match (ps : list piece) (s : string) : option string :=
  match ps with
  | [] => Some EmptyString
  | p :: r =>
      let '(a, b) :=
        match p with
        | PSpaces => let '(a, b) := span (Ascii.eqb " ") s in (Some a, b)
        | PLit l => (if starts l s then Some l else None, sdrop (String.length l) s)
        | PWord => let '(a, b) := span (fun c => negb (is_ws c)) s in
                   (match a with EmptyString => None | _ => Some a end, b)
        | PDigits => let '(a, b) := span is_digit s in
                     (match a with EmptyString => None | _ => Some a end, b)
        | PDigit => match s with
                    | EmptyString => (None, s)
                    | String c b => (if is_digit c then Some (String c EmptyString) else None, b)
                    end
        | PSpaceOrEnd => match s with
                         | EmptyString => (Some EmptyString, s)
                         | String c b => (if Ascii.eqb c " " then Some " " else None, b)
                         end
        end in
      match a with
      | None => None
      | Some m => option_map (String.append m) (re_match r b)
      end
  end.
Definition re_test (ps : list piece) (s : string) : bool :=
  match re_match ps s with Some _ => true | None => false end.

(** ** Constants *)

(** runningconfig.py:11-17 *)
Definition short_no_commands : list string :=
  ["no license boot level "; "no transport input "; "no transport output "; "no ip address "; "no ipv6 address "].
(** runningconfig.py:32-36 *)
Definition coexist_commands : list string :=
  ["snmp-server manager"; "ip multicast-routing"; "ip dhcp relay information option"].
(** runningconfig.py:63-141 *)
Definition lit (s : string) : list piece := [PSpaces; PLit s].
Definition orderless_commands : list (list piece * nat) :=
  [ (lit "aaa authentication ", 0); (lit "aaa accounting system default ", 0); (lit "aaa attribute list ", 0);
    (lit "aaa group server ", 0); (lit "radius server ", 0); (lit "logging host ", 0); (lit "flow exporter ", 0);
    (lit "flow record ", 0); (lit "flow monitor ", 0); (lit "flow file-export ", 0); (lit "exporter ", 1);
    (lit "dot1x ", 0); (lit "service-template ", 0); (lit "redundancy", 0); (lit "username ", 0);
    (lit "parameter-map type ", 0); (lit "match ipv4 ", 1); (lit "match ipv6 ", 1); (lit "match protocol ", 1);
    (lit "collect connection ", 1); (lit "l2nat instance ", 0); (lit "inside from host ", 1); (lit "outside from host ", 1);
    (lit "inside from network ", 1); (lit "outside from network ", 1); (lit "inside from range ", 1);
    (lit "outside from range ", 1); (lit "neighbor ", 1); (lit "neighbor ", 2); (lit "no neighbor ", 2);
    (lit "crypto keyring ", 0); (lit "crypto tls-tunnel ", 0); (lit "ip helper-address ", 1);
    (lit "route-target import ", 1); (lit "route-target export ", 1); (lit "default-router ", 1); (lit "dns-server ", 1);
    (lit "domain-name ", 1); (lit "option ", 1); (lit "lease ", 1); (lit "vlan group ", 0);
    (lit "ip ospf message-digest-key ", 1); (lit "ospfv3 neighbor ", 1);
    ([PSpaces; PLit "ospfv3 "; PDigits; PLit " ipv"; PDigit; PLit " neighbor"], 1);
    ([PSpaces; PLit "ospfv3 "; PDigits; PLit " neighbor "], 1);
    (lit "mobile-network pool ", 4); (lit "mobile-network v6pool ", 4); (lit "router ", 0); (lit "area ", 1);
    (lit "redistribute ", 1); (lit "redistribute ", 2); (lit "redistribute ", 3); (lit "distribute-list prefix-list ", 1);
    (lit "ip dns ", 0); (lit "ip route ", 0); (lit "ipv6 route ", 0); (lit "ip multicast-routing ", 0);
    (lit "ipv6 multicast-routing ", 0); (lit "ip pim vrf ", 0); (lit "ipv6 pim vrf ", 0); (lit "ip pim rp-address ", 0);
    (lit "ipv6 pim rp-address ", 0); (lit "ip access-list ", 0); (lit "ipv6 access-list ", 0); (lit "ip dhcp pool ", 0);
    (lit "ipv6 dhcp pool ", 0); (lit "bandwidth remaining ratio ", 2); (lit "ntp server ", 0); (lit "mpls mldp static ", 0);
    (lit "mpls ldp advertise-labels for ", 0); (lit "device-tracking binding ", 0); (lit "device classifier ", 0);
    ([PSpaces; PWord; PLit " tlv-type "], 1); (lit "mac Regex ", 1); (lit "netconf-yang", 0); (lit "summary-address ", 1);
    (lit "member vni ", 1) ].
(** runningconfig.py:149-155 *)
Definition overwritable_commands : list (list piece) :=
  [ [PSpaces; PLit "username "; PWord; PLit " privilege "; PDigits; PLit " password "];
    lit "password "; lit "description "; [PSpaces; PLit "ip address"; PSpaceOrEnd]; [PSpaces; PLit "ipv6 address"; PSpaceOrEnd] ].
(** runningconfig.py:164-166 and 184-186 *)
Definition is_sibling_command (l : string) : bool := re_test (lit "client ") l.
Definition is_missing_indent (l : string) : bool := re_test (lit "client ") l.
(** runningconfig.py:209-213 *)
Definition replacing_commands : list (string * string) :=
  [ ("exit-locator-set", "exit"); ("exit-router-lisp", "exit"); ("exit-address-family", " exit-address-family") ].

(** ** Trees of lines: the tuples [(line, children or None, info)] *)

(** '', '+', '-', '?' *)
Inductive info := ISame | IPlus | IMinus | IBoth.
Inductive item := It (k : string) (v : option (list item)) (i : info).
Definition ikey (x : item) := let '(It k _ _) := x in k.
Definition ival (x : item) := let '(It _ v _) := x in v.
Definition iinfo (x : item) := let '(It _ _ i) := x in i.
Definition with_info (i : info) (x : item) : item := It (ikey x) (ival x) i.
Definition keys (l : list item) : list string := map ikey l.

Definition info_eqb (a b : info) : bool :=
  match a, b with ISame, ISame | IPlus, IPlus | IMinus, IMinus | IBoth, IBoth => true | _, _ => false end.
(** [==] of tuples and lists *)
Fixpoint item_eqb (x y : item) {struct x} : bool :=
  let '(It k v i) := x in let '(It k' v' i') := y in
  String.eqb k k' && info_eqb i i' &&
  match v, v' with
  | None, None => true
  | Some l, Some l' =>
      (fix go (l l' : list item) : bool :=
         match l, l' with
         | [], [] => true
         | a :: r, b :: r' => item_eqb a b && go r r'
         | _, _ => false
         end) l l'
  | _, _ => false
  end.
Definition items_eqb : list item -> list item -> bool := list_eqb item_eqb.
Definition val_eqb : option (list item) -> option (list item) -> bool := opt_eqb items_eqb.

Fixpoint depth_item (x : item) : nat :=
  let '(It _ v _) := x in
  S (match v with None => 0 | Some l => fold_right (fun c n => Nat.max (depth_item c) n) 0 l end).
Definition depth (l : list item) : nat := fold_right (fun c n => Nat.max (depth_item c) n) 0 l.

Definition smem := mem String.eqb.

(** ** ListDiff.compare, runningconfig.py:243-318 *)

(** [l[:i]], [l[i]], [l[i+1:]] for the first [i] with key [k]: what
    [key_list[previous:].index(k)] is used for, with [l] the part from [previous]. *)
Fixpoint split_key (k : string) (l : list item) : res (list item * item * list item) :=
  match l with
  | [] => Err ValueError
  | x :: r => if String.eqb (ikey x) k then Ok ([], x, r)
              else let! (a, y, b) := split_key k r in Ok (x :: a, y, b)
  end.

(** The common keys, 246-254: [l1] is the part of list1 from [previous_index_1].
    [previous_index_2] has no influence on the keys found. *)
Fixpoint common_keys (l1 : list item) (keys2 : list string) : res (list string) :=
  match keys2 with
  | [] => Ok []
  | k :: r => if smem k (keys l1)
              then let! (_, _, l1') := split_key k l1 in
                   let! cs := common_keys l1' r in Ok (k :: cs)
              else common_keys l1 r
  end.

Definition minus (l : list item) : list item := map (with_info IMinus) l.
Definition plus (l : list item) : list item := map (with_info IPlus) l.

(** A line found in both lists, 270-294; [rec] is [compare]. The last case cannot
    happen: both values would be None and equal. *)
Definition common_item (rec : list item -> list item -> res (list item)) (k : string)
    (v1 v2 : option (list item)) : res (list item) :=
  if val_eqb v1 v2 then
    Ok [It k (option_map (map (with_info ISame)) v1) IBoth]
  else
    match v1, v2 with
    | Some l1, Some l2 => let! d := rec l1 l2 in Ok [It k (Some d) ISame]
    | Some l1, None => Ok [It k (Some (minus l1)) ISame]
    | None, Some l2 => Ok [It k (Some (plus l2)) ISame]
    | None, None => Ok []
    end.

(** The loop over the common keys, 255-303. [l1], [l2]: the lists from
    [previous_index_1] and [previous_index_2]. *)
Fixpoint raw_diff (rec : list item -> list item -> res (list item)) (cs : list string)
    (l1 l2 : list item) : res (list item) :=
  match cs with
  | [] => Ok (minus l1 ++ plus l2)
  | k :: r =>
      let! (a1, x1, b1) := split_key k l1 in
      let! (a2, x2, b2) := split_key k l2 in
      let! c := common_item rec k (ival x1) (ival x2) in
      let! d := raw_diff rec r b1 b2 in
      Ok (minus a1 ++ plus a2 ++ c ++ d)
  end.

(** 305-318 *)
Fixpoint cleanup (before : list string) (d : list item) : list item :=
  match d with
  | [] => []
  | x :: r =>
      let rest := cleanup (ikey x :: before) r in
      match iinfo x with
      | IBoth => if existsb (fun k => smem k before) (keys r) then with_info ISame x :: rest else rest
      | _ => x :: rest
      end
  end.

Fixpoint compare (fuel : nat) (l1 l2 : list item) {struct fuel} : res (list item) :=
  match fuel with
  | 0 => Err OutOfFuel
  | S f => let! cs := common_keys l1 (keys l2) in
           let! d := raw_diff (compare f) cs l1 l2 in
           Ok (cleanup [] d)
  end.
(** [ListDiff(list1, list2).diff]: the recursion descends into list1. *)
Definition list_diff (l1 l2 : list item) : res (list item) := compare (S (depth l1)) l1 l2.

(** ** config2list, runningconfig.py:421-501 *)

Record pstate := PState {
  p_ret : list item; p_last : string; p_sec : list string; p_ind : nat; p_miss : bool }.

(** 437-445, 483-491, 495-500 *)
Definition flush (rec : list string -> res (list item)) (st : pstate) : res (list item) :=
  match p_last st with
  | EmptyString => Ok (p_ret st)
  | _ => if 0 <? p_ind st
         then let! c := rec (p_sec st) in Ok (p_ret st ++ [It (rstrip (p_last st)) (Some c) ISame])
         else Ok (p_ret st ++ [It (rstrip (p_last st)) None ISame])
  end.

(** [re.search('^ *!', line) or re.search('^ *%', line)] *)
Definition is_comment (l : string) : bool :=
  re_test (lit "!") l || re_test (lit "%") l.

(** 428-435 *)
Definition skipped (l : string) : bool :=
  ((22 <? String.length (strip l)) && String.eqb (stake 22 l) "Building configuration") ||
  ((21 <? String.length (strip l)) && String.eqb (stake 21 l) "Current configuration") ||
  String.eqb (strip l) "".

(** The body of the loop, 427-494 *)
Definition parse_line (rec : list string -> res (list item)) (st : pstate) (line : string) : res pstate :=
  if skipped line then Ok st
  else if p_miss st && String.eqb (rstrip line) "!" then
    let! ret := flush rec st in Ok (PState ret "" [] 0 false)
  else if is_comment line then Ok st
  else match line with
  | String " " _ =>
      let cur := indentation line in
      let ind := if p_ind st =? 0 then cur else p_ind st in
      let l' := if cur <? ind then (spaces (ind + 1) ++ sdrop cur line)%string else sdrop ind line in
      Ok (PState (p_ret st) (p_last st) (p_sec st ++ [l']) ind (p_miss st))
  | _ =>
      if negb (is_missing_indent line) && p_miss st then
        Ok (PState (p_ret st) (p_last st) (p_sec st ++ [line]) (if p_ind st =? 0 then 1 else p_ind st) true)
      else
        let! ret := flush rec st in
        Ok (PState ret line [] 0 (is_missing_indent line || p_miss st))
  end.

(** A section has fewer lines than the text, so the number of lines is enough fuel. *)
Fixpoint config2list (fuel : nat) (lines : list string) : res (list item) :=
  match fuel with
  | 0 => Err OutOfFuel
  | S f => let! st := foldM (parse_line (config2list f)) (PState [] "" [] 0 false) lines in
           flush (config2list f) st
  end.
Definition parse (lines : list string) : res (list item) := config2list (S (length lines)) lines.

(** ** list2config, runningconfig.py:503-523, and indent, 850-860 *)

Definition indent_line (l : string) : list string :=
  match l with
  | EmptyString => []
  | String c r => if Ascii.eqb c "-" || Ascii.eqb c "+" then [String c ("  " ++ r)%string] else [("  " ++ l)%string]
  end.
Definition indent (ls : list string) : list string := flat_map indent_line ls.

Definition info_char (i : info) : string :=
  match i with ISame => " " | IPlus => "+" | IMinus => "-" | IBoth => "?" end.

(** [dt] is [diff_type]: [None], or the info to be used; '' means the info of each
    item. *)
Fixpoint render_item (dt : option info) (x : item) : list string :=
  let '(It k v i) := x in
  match k with
  | EmptyString => []
  | _ =>
      let local := match dt with Some ISame => Some i | _ => dt end in
      (match dt with
       | None => ("  " ++ k)%string
       | Some _ => (info_char (match local with Some j => j | None => ISame end) ++ " " ++ k)%string
       end) ::
      match v with
      | None => []
      | Some l => indent (flat_map (render_item local) l)
      end
  end.
Definition list2config (dt : option info) (l : list item) : list string := flat_map (render_item dt) l.

(** ** Commands *)

(** A command with its sub-commands: the lines of the string. *)
Definition cmd := list string.

(** 624-634 *)
Definition handle_command (c : string) : string * bool :=
  if starts "no no " c then (strip (sdrop 6 c), false)
  else match find (fun sc => starts sc c) short_no_commands with
       | Some sc => (strip sc, true)
       | None => if starts "no " c then (strip c, true) else (strip c, false)
       end.

(** 768-779 *)
Fixpoint dedup (seen : list cmd) (l : list cmd) : list cmd :=
  match l with
  | [] => []
  | c :: r => if mem (list_eqb String.eqb) c seen then dedup seen r else c :: dedup (c :: seen) r
  end.
Definition remove_duplicates (l : list cmd) : list cmd := dedup [] l.

(** [a] is shorter than [b] and [b[:len(a)] == a] *)
Definition shorter_prefix (a b : string) : bool :=
  (String.length a <? String.length b) && starts a b.

(** One-line commands: [c] contains no newline *)
Definition one_line (c : cmd) : option string := match c with [l] => Some l | _ => None end.

(** 808-827: the pairs (c1, c2) of one-line commands at different positions; an index
    is deleted if its command extends the other. *)
Definition prune_negative (l : list cmd) : list cmd :=
  filter (fun c => match one_line c with
                   | None => true
                   | Some t => negb (existsb (fun c' => match one_line c' with
                                                        | None => false
                                                        | Some t' => shorter_prefix t' t
                                                        end) l)
                   end) l.

(** 829-848: an index is deleted if its command is extended by the other; the
    commands of [COEXIST_SHORT_POSITIVE_COMMANDS] are not looked at. *)
Definition positive_candidate (c : cmd) : option string :=
  match one_line c with
  | None => None
  | Some t => if smem t coexist_commands then None else Some t
  end.
Definition prune_positive (l : list cmd) : list cmd :=
  filter (fun c => match positive_candidate c with
                   | None => true
                   | Some t => negb (existsb (fun c' => match positive_candidate c' with
                                                        | None => false
                                                        | Some t' => shorter_prefix t t'
                                                        end) l)
                   end) l.

(** ** list2cli, runningconfig.py:525-614 *)

Record clis := Clis { c_pos : list cmd; c_neg : list cmd }.

(** 616-622 *)
Definition append_command (c : string) (st : clis) : clis :=
  let '(t, is_no) := handle_command c in
  if is_no then Clis (c_pos st) (c_neg st ++ [[t]]) else Clis (c_pos st ++ [[t]]) (c_neg st).

(** [str.rstrip] of lines joined by newlines *)
Fixpoint rstrip_lines (l : list string) : list string :=
  match l with
  | [] => []
  | x :: r => match rstrip_lines r with
              | [] => match rstrip x with EmptyString => [] | x' => [x'] end
              | r' => x :: r'
              end
  end.
(** [if positive_str] *)
Definition text_empty (l : list string) : bool := match l with [] | [EmptyString] => true | _ => false end.

(** The deletion of the first negative command that the regular expression match [m]
    makes unnecessary, 576-589. *)
Definition neg_matches (m : string) (c : cmd) : bool :=
  match c with
  | [] => false
  | l :: _ => starts ("no " ++ lstrip m) (lstrip l)
  end.
Fixpoint del_first {A} (p : A -> bool) (l : list A) : list A :=
  match l with
  | [] => []
  | x :: r => if p x then r else x :: del_first p r
  end.

(** State of the loops 569-595: the negative list, [idx_positive_dict],
    [idx_positive_list]. The regular expressions contain no newline, so only the first
    line of a command matters, except for [$]: a command with sub-commands does not
    match [PSpaceOrEnd] at the end of its first line. *)
Definition over_match (ps : list piece) (c : cmd) : option string :=
  match c with
  | [l] => re_match ps l
  | l :: _ => re_match ps (l ++ String (ascii_of_nat 10) "")
  | [] => None
  end.
(** [idx_positive_list] is used as a set here; [RunDelM.v] has the deletions by index. *)
Record ostate := OState { o_neg : list cmd; o_dict : list (string * nat); o_del : list nat }.
Definition over_step (ps : list piece) (st : ostate) (p : nat * cmd) : ostate :=
  let '(idx, c) := p in
  match over_match ps c with
  | None => st
  | Some m =>
      let e := strip m in
      OState (del_first (neg_matches m) (o_neg st))
             (dset String.eqb e idx (o_dict st))
             (match assoc String.eqb e (o_dict st) with
              | Some i => o_del st ++ [i]
              | None => o_del st
              end)
  end.
Definition enumerate {A} (l : list A) : list (nat * A) := combine (seq 0 (length l)) l.
Definition overwrite (regs : list (list piece)) (st : clis) : clis :=
  let pos := enumerate (c_pos st) in
  let o := fold_left (fun o ps => fold_left (over_step ps) pos o) regs (OState (c_neg st) [] []) in
  Clis (map snd (filter (fun p => negb (mem Nat.eqb (fst p) (o_del o))) pos)) (o_neg o).

(** 601-614 *)
Definition finish (regs : list (list piece)) (st : clis) : clis :=
  let st := overwrite regs st in
  Clis (prune_positive (remove_duplicates (c_pos st))) (prune_negative (remove_duplicates (c_neg st))).

Definition join_cmds (l : list cmd) : list string := concat l.

(** 530 *)
Definition positive_keys (l : list item) : list string :=
  map ikey (filter (fun x => info_eqb (iinfo x) IPlus && match ival x with None => true | _ => false end) l).

(** One line of the diff, 531-566. [sub] is the result of [list2cli] on the children:
    the positive and the negative text. *)
Definition cli_item (pks : list string) (sub : list string * list string) (x : item) (st : clis) : clis :=
  let '(It k v i) := x in
  match k with
  | EmptyString => st
  | _ =>
      match v with
      | None =>
          match i with
          | IPlus => append_command k st
          | IMinus => if existsb (starts k) pks then st else append_command ("no " ++ k) st
          | _ => st
          end
      | Some l =>
          match i with
          | ISame =>
              let st := if text_empty (fst sub) then st
                        else Clis (c_pos st ++ [k :: rstrip_lines (indent (fst sub))]) (c_neg st) in
              if text_empty (snd sub) then st
              else Clis (c_pos st) (c_neg st ++ [k :: rstrip_lines (indent (snd sub))])
          | IPlus => Clis (c_pos st ++ [k :: rstrip_lines (list2config None l)]) (c_neg st)
          | IMinus => append_command ("no " ++ k) st
          | IBoth => st
          end
      end
  end.

Fixpoint item_cli (regs : list (list piece)) (pks : list string) (x : item) (st : clis) : clis :=
  let '(It _ v _) := x in
  cli_item pks
    (match v with
     | None => ([], [])
     | Some l =>
         let pk := positive_keys l in
         let r := finish regs ((fix go (l : list item) (s : clis) : clis :=
                                  match l with
                                  | [] => s
                                  | y :: t => go t (item_cli regs pk y s)
                                  end) l (Clis [] [])) in
         (join_cmds (c_pos r), join_cmds (rev (c_neg r)))
     end) x st.
Definition cli_lists (regs : list (list piece)) (l : list item) : clis :=
  finish regs (fold_left (fun s x => item_cli regs (positive_keys l) x s) l (Clis [] [])).
(** The positive and the negative text *)
Definition list2cli (regs : list (list piece)) (l : list item) : list string * list string :=
  let r := cli_lists regs l in (join_cmds (c_pos r), join_cmds (rev (c_neg r))).

(** ** handle_orderless, runningconfig.py:636-759 *)

Fixpoint index_of (k : string) (l : list string) : res nat :=
  match l with
  | [] => Err ValueError
  | x :: r => if String.eqb x k then Ok 0 else let! n := index_of k r in Ok (S n)
  end.
(** [l[a:b]] *)
Definition slice {A} (a : nat) (b : option nat) (l : list A) : list A :=
  skipn a (match b with None => l | Some n => firstn n l end).
Definition insert_at {A} (n : nat) (x : A) (l : list A) : list A := firstn n l ++ x :: skipn n l.

Fixpoint nub (seen l : list string) : list string :=
  match l with
  | [] => []
  | x :: r => if smem x seen then nub seen r else x :: nub (x :: seen) r
  end.

(** [matches.keys()], 641-646; [ol] tells whether a line is orderless at this depth *)
Definition match_keys (ol : string -> bool) (k1 k2 : list string) : list string :=
  nub [] (filter (fun k => ol k && smem k k1) k2).

(** [removed_items[k]], 653-656: the first item with this key *)
Fixpoint removed_item (k : string) (l : list item) : res item :=
  match l with
  | [] => Err KeyError
  | x :: r => if String.eqb (ikey x) k then Ok x else removed_item k r
  end.

Record hstate := HState {
  h_list : list item; h_off1 : nat; h_off2 : nat; h_ins : list string; h_anchor : option nat }.

(** 704-713, 726-735, 743-747: insertion of several removed items *)
Definition insert_all (l1 : list item) (ks : list string) (st : hstate) : res hstate :=
  foldM (fun st k =>
           let! x := removed_item k l1 in
           Ok (HState (insert_at (h_off1 st) x (h_list st)) (S (h_off1 st)) (h_off2 st) (h_ins st ++ [k]) (h_anchor st)))
        st ks.

(** The loop 676-742: one line of list1. [k1], [k2]: the lines of both lists; [mk] the
    orderless lines; [com] the common lines. *)
Definition orderless_step (l1 : list item) (k2 mk com : list string) (st : hstate) (line : string) : res hstate :=
  let k1 := keys l1 in
  if smem line mk then
    if smem line (h_ins st) then Ok st
    else
      let last_line := match h_anchor st with None => None | Some n => nth_error k2 n end in
      let! next_line :=
        match last_line with
        | None => Ok (nth_error com 0)
        | Some a => let! n := index_of a com in Ok (nth_error com (n + 1))
        end in
      let! next2 := match next_line with None => Ok None | Some a => let! n := index_of a k2 in Ok (Some n) end in
      let! last1 := match last_line with None => Ok 0 | Some a => index_of a k1 end in
      let! next1 := match next_line with None => Ok None | Some a => let! n := index_of a k1 in Ok (Some n) end in
      if smem line (slice (match h_anchor st with None => 0 | Some n => n end) next2 k2) then
        let! i2 := index_of line k2 in
        let ks := filter (fun k => smem k mk && smem k (slice last1 next1 k1) && negb (smem k (h_ins st)))
                         (slice (h_off2 st) (Some (i2 + 1)) k2) in
        let! st' := insert_all l1 ks st in
        Ok (HState (h_list st') (h_off1 st') (i2 + 1) (h_ins st') (h_anchor st'))
      else insert_all l1 [line] st
  else if smem line com then
    let! a2 := index_of line k2 in
    let! a1 := index_of line k1 in
    let! st1 :=
      if h_off2 st <=? a2 then
        insert_all l1 (filter (fun k => smem k mk && smem k (slice (h_off1 st) (Some a1) k1) && negb (smem k (h_ins st)))
                              (slice (h_off2 st) (Some a2) k2)) st
      else Ok st in
    let! n := index_of line (keys (h_list st1)) in
    Ok (HState (h_list st1) (n + 1) (if h_off2 st1 <? a2 + 1 then a2 + 1 else h_off2 st1) (h_ins st1) (Some a2))
  else
    let! n := index_of line (keys (h_list st)) in
    Ok (HState (h_list st) (n + 1) (h_off2 st) (h_ins st) (h_anchor st)).

(** 637-747: list1 with the orderless lines moved *)
Definition orderless_level (ol : string -> bool) (l1 l2 : list item) : res (list item) :=
  let k2 := keys l2 in
  let mk := match_keys ol (keys l1) k2 in
  let base := filter (fun x => negb (smem (ikey x) mk)) l1 in
  let! com := common_keys base k2 in
  let! st := foldM (orderless_step l1 k2 mk com) (HState base 0 0 [] None) (keys l1) in
  let ks := filter (fun k => smem k mk && negb (smem k (h_ins st))) (slice (h_off2 st) None k2) in
  let! st' := insert_all l1 ks st in
  Ok (h_list st').

(** The children handed to the recursive call, 749-757: the last item with the key
    that has children *)
Definition last_kids (k : string) (l : list item) : option (list item) :=
  fold_left (fun o x => match ival x with
                        | Some (y :: r) => if String.eqb (ikey x) k then Some (y :: r) else o
                        | _ => o
                        end) l None.

(** Whether another item with key [k] and children follows *)
Definition has_later (k : string) (l : list item) : bool :=
  existsb (fun x => String.eqb (ikey x) k && match ival x with Some (_ :: _) => true | _ => false end) l.

(** The children lists are changed in place: the one of the last item with the key, or
    of all of them if the key is orderless, since then they are one object. *)
Fixpoint deep_items (rec : list item -> list item -> res (list item)) (mk : list string) (l2 : list item)
    (l : list item) : res (list item) :=
  match l with
  | [] => Ok []
  | x :: r =>
      let! r' := deep_items rec mk l2 r in
      match ival x with
      | Some (y :: ys) =>
          if has_later (ikey x) r && negb (smem (ikey x) mk) then Ok (x :: r')
          else match last_kids (ikey x) l2 with
               | None => Ok (x :: r')
               | Some v2 => let! v := rec (y :: ys) v2 in Ok (It (ikey x) (Some v) (iinfo x) :: r')
               end
      | _ => Ok (x :: r')
      end
  end.

(** [ol d k]: line [k] is orderless at depth [d], [match_orderless], 761-766. list2 is
    not changed. *)
Fixpoint handle_orderless (fuel : nat) (ol : nat -> string -> bool) (d : nat) (l1 l2 : list item) {struct fuel}
  : res (list item) :=
  match fuel with
  | 0 => Err OutOfFuel
  | S f =>
      let! l := orderless_level (ol d) l1 l2 in
      deep_items (handle_orderless f ol (S d)) (match_keys (ol d) (keys l1) (keys l2)) l2 l
  end.
Definition orderless (ol : nat -> string -> bool) (l1 l2 : list item) : res (list item) :=
  handle_orderless (S (depth l1)) ol 0 l1 l2.

(** 761-766 *)
Definition match_orderless (d : nat) (line : string) : bool :=
  existsb (fun p => (snd p =? d) && re_test (fst p) line) orderless_commands.

(** ** handle_sibling_cammands, runningconfig.py:781-806 *)

Definition split_siblings (sib : string -> bool) (x : item) : item * list item :=
  match ival x with
  | Some l => if sib (ikey x)
              then let stay := filter (fun c => negb (sib (ikey c))) l in
                   (It (ikey x) (match stay with [] => None | _ => Some stay end) (iinfo x),
                    filter (fun c => sib (ikey c)) l)
              else (x, [])
  | None => (x, [])
  end.

(** [n] iterations of the loop are left; what it has passed is not visited again, what
    is left after the last iteration is not visited. *)
Fixpoint siblings (fuel : nat) (sib : string -> bool) (l : list item) {struct fuel} : res (list item) :=
  match fuel with
  | 0 => Err OutOfFuel
  | S f =>
      (fix go (n : nat) (l : list item) {struct n} : res (list item) :=
         match n, l with
         | S m, x :: r =>
             let '(x', sibs) := split_siblings sib x in
             let! x'' := match ival x' with
                         | None => Ok x'
                         | Some c => let! c' := siblings f sib c in Ok (It (ikey x') (Some c') (iinfo x'))
                         end in
             let! r' := go m (sibs ++ r) in
             Ok (x'' :: r')
         | _, _ => Ok l
         end) (length l) l
  end.
Definition handle_siblings (sib : string -> bool) (l : list item) : res (list item) := siblings (S (depth l)) sib l.

(** ** get_diff and get_cli, runningconfig.py:389-419 *)

(** 414-416; the patterns contain no newline, so each line is replaced by itself *)
Definition replace_line (l : string) : string :=
  fold_left (fun s p => replace_str (S (String.length s)) (fst p) (snd p) s) replacing_commands l.

Definition running2list (t1 t2 : list string) : res (list item * list item) :=
  let! l1 := parse (map replace_line t1) in
  let! l2 := parse (map replace_line t2) in
  let! l1' := orderless match_orderless l1 l2 in
  Ok (l1', l2).

(** [_diff_list] and [_diff_list_reverse] *)
Definition running_lists (t1 t2 : list string) : res (list item * list item) :=
  let! (l1, l2) := running2list t1 t2 in
  let! s1 := handle_siblings is_sibling_command l1 in
  let! s2 := handle_siblings is_sibling_command l2 in
  Ok (s1, s2).
Definition get_diff (reverse : bool) (t1 t2 : list string) : res (list item) :=
  let! (s1, s2) := running_lists t1 t2 in
  if reverse then list_diff s2 s1 else list_diff s1 s2.
Definition running_bool (t1 t2 : list string) : res bool :=
  let! d := get_diff false t1 t2 in Ok (match d with [] => false | _ => true end).
(** The lines of [str(self)] *)
Definition running_str (t1 t2 : list string) : res (list string) :=
  let! d := get_diff false t1 t2 in Ok (list2config (Some ISame) d).
(** The lines of [cli], 399-411 *)
Definition get_cli (reverse : bool) (t1 t2 : list string) : res (list string) :=
  let! d := get_diff reverse t1 t2 in
  match d with
  | [] => Ok []
  | _ => let '(p, n) := list2cli overwritable_commands d in
         if text_empty p then Ok n
         else if text_empty n then Ok p else Ok (n ++ ["!"] ++ p)
  end.
