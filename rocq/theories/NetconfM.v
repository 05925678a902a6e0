(** Model of /repo/src/ncdiff/netconf.py: applying and computing deltas. *)
From Coq Require Import String Ascii List Bool Arith ZArith Lia.
From Verif Require Import Base XmlM CalcM.
Import ListNotations.
Open Scope string_scope.
Open Scope list_scope.

(** [_del_attrib], calculator.py:51-74: all attributes of the element and of its
    descendants are deleted. *)
Fixpoint del_attrib (x : xml) : xml :=
  let '(Elem t tx _ k) := x in Elem t tx [] (map del_attrib k).

(** ** The key attribute of user-ordered list entries *)

(** ["[{}='{}']".format(ids[k], key_nodes[k].text)] joined over the keys,
    netconf.py:439-449 and 1251-1262. A key without text is formatted as None.
    Simplified: the key keeps its [{url}name] notation. [_url_to_prefix] and the way the
    receiver reads prefixes are modelled in KeyNsM.v; C76_simplified says when this
    notation finds the same entries. *)
Fixpoint pred_string (keys : list string) (x : xml) : res string :=
  match keys with
  | [] => Ok ""
  | k :: r =>
      match find_kid k (xkids x) with
      | None => Err AttributeError
      | Some kn =>
          let! rest := pred_string r x in
          Ok ("[" ++ k ++ "='" ++ (match xtext kn with None => "None" | Some t => t end)
              ++ "']" ++ rest)%string
      end
  end.

(** Text before and after the first occurrence of a character. *)
Fixpoint split_at (c : ascii) (s : string) : option (string * string) :=
  match s with
  | EmptyString => None
  | String d r => if Ascii.eqb c d then Some ("", r)
                  else match split_at c r with
                       | None => None
                       | Some (a, b) => Some (String d a, b)
                       end
  end.

(** The predicates understood by [Element.find] (lxml ElementPath), restricted to
    the form [[tag='value']]. Any other text is treated as the SyntaxError that
    ElementPath raises for an invalid predicate; other legal predicate forms are
    not modelled. *)
Fixpoint parse_preds (fuel : nat) (s : string) : option (list (string * string)) :=
  match s with
  | EmptyString => Some []
  | String "["%char r =>
      match fuel with
      | 0 => None
      | S f =>
          match split_at "="%char r with
          | Some (name, String "'"%char r2) =>
              match split_at "'"%char r2 with
              | Some (v, String "]"%char r3) =>
                  match parse_preds f r3 with
                  | Some ps => Some ((name, v) :: ps)
                  | None => None
                  end
              | _ => None
              end
          | _ => None
          end
      end
  | _ => None
  end.

Definition text_str (x : xml) : string := match xtext x with None => "" | Some t => t end.

Definition matches_preds (ps : list (string * string)) (x : xml) : bool :=
  forallb (fun p => existsb (fun c => String.eqb (xtag c) (fst p) && String.eqb (text_str c) (snd p))
                            (xkids x)) ps.

(** ** Child lists of the sum *)

(** Children are kept with their identity: lxml compares elements by object
    identity, and the identities are unique (else [_pair_children] raises). *)
Definition ent := (uid * xml)%type.

(** [filter (has_tag t)] is [_get_sequence] with all children of the parent as scope,
    calculator.py:77-113, as netconf.py:595-596, 711-712, 835-843 and 969-977 call it. *)
Definition has_tag (t : string) (e : ent) : bool := String.eqb (xtag (snd e)) t.
Definition has_uid (u : uid) (e : ent) : bool := uid_eqb u (fst e).

(** [siblings[-1].addnext(e)], or [append(e)] if there are no siblings *)
Fixpoint ins_after_last {A} (p : A -> bool) (e : A) (l : list A) : list A :=
  match l with
  | [] => [e]
  | x :: r => if existsb p r then x :: ins_after_last p e r
              else if p x then x :: e :: r else x :: ins_after_last p e r
  end.
(** [siblings[0].addprevious(e)], or [append(e)] if there are no siblings *)
Fixpoint ins_before_first {A} (p : A -> bool) (e : A) (l : list A) : list A :=
  match l with
  | [] => [e]
  | x :: r => if p x then e :: x :: r else x :: ins_before_first p e r
  end.
(** [sibling.addnext(e)] for the first element satisfying [p] *)
Fixpoint ins_after_first {A} (p : A -> bool) (e : A) (l : list A) : list A :=
  match l with
  | [] => [e]
  | x :: r => if p x then x :: e :: r else x :: ins_after_first p e r
  end.
Definition del_uid (u : uid) (l : list ent) : list ent := filter (fun e => negb (has_uid u e)) l.
Definition upd_uid (u : uid) (x : xml) (l : list ent) : list ent :=
  map (fun e => if has_uid u e then (u, x) else e) l.

(** The sibling named by the value attribute, netconf.py:613-615, 852-854 *)
Definition find_value (t v : string) (l : list ent) : option uid :=
  option_map fst (find (fun e => has_tag t e && ostr_eqb (xtext (snd e)) (Some v)) l).
(** The sibling named by the key attribute, netconf.py:729-731, 985-987 *)
Definition find_key (t p : string) (l : list ent) : res (option uid) :=
  match parse_preds (String.length p) p with
  | None => Err SyntaxError
  | Some ps => Ok (option_map fst (find (fun e => has_tag t e && matches_preds ps (snd e)) l))
  end.

(** The sibling an insert="before"/"after" refers to: [_inserterror]
    (netconf.py:24-35) if the attribute is missing or names nothing. *)
Definition ref_sibling (ty : stype) (c : xml) (l : list ent) : res uid :=
  match ty with
  | TLeafList =>
      match get_attr value_tag c with
      | None => Err ConfigDeltaError
      | Some v => match find_value (xtag c) v l with
                  | None => Err ConfigDeltaError
                  | Some u => Ok u
                  end
      end
  | _ =>
      match get_attr key_tag c with
      | None => Err ConfigDeltaError
      | Some p => let! o := find_key (xtag c) p l in
                  match o with
                  | None => Err ConfigDeltaError
                  | Some u => Ok u
                  end
      end
  end.

(** Position of a new leaf-list or list entry, netconf.py:595-637, 711-753. [None]:
    the insert attribute has an unknown value, the entry is not put into the tree. *)
Definition place_new (cs : snode) (c : xml) (e : ent) (l : list ent) : res (option (list ent)) :=
  match (if s_user (si cs) then get_attr insert_tag c else None) with
  | Some "first" => Ok (Some (ins_before_first (has_tag (xtag c)) e l))
  | Some "last" => Ok (Some (ins_after_last (has_tag (xtag c)) e l))
  | Some "before" => let! u := ref_sibling (sty cs) c l in
                     Ok (Some (ins_before_first (has_uid u) e l))
  | Some "after" => let! u := ref_sibling (sty cs) c l in
                    Ok (Some (ins_after_first (has_uid u) e l))
  | Some _ => Ok None
  | None => Ok (Some (ins_after_last (has_tag (xtag c)) e l))
  end.

(** Moving an existing entry, netconf.py:833-874, 965-1006. *)
Definition move_peer (cs : snode) (c : xml) (e : ent) (l : list ent) : res (list ent) :=
  let u := fst e in
  match (if s_user (si cs) then get_attr insert_tag c else None) with
  | Some "first" =>
      match find (has_tag (xtag c)) l with
      | Some e0 => if has_uid u e0 then Ok l
                   else Ok (ins_before_first (has_tag (xtag c)) e (del_uid u l))
      | None => Err IndexError
      end
  | Some "last" =>
      match find (has_tag (xtag c)) (rev l) with
      | Some e0 => if has_uid u e0 then Ok l
                   else Ok (ins_after_last (has_tag (xtag c)) e (del_uid u l))
      | None => Err IndexError
      end
  | Some "before" => let! v := ref_sibling (sty cs) c l in
                     if uid_eqb v u then Ok l
                     else Ok (ins_before_first (has_uid v) e (del_uid u l))
  | Some "after" => let! v := ref_sibling (sty cs) c l in
                    if uid_eqb v u then Ok l
                    else Ok (ins_after_first (has_uid v) e (del_uid u l))
  | _ => Ok l
  end.

(** ** node_add *)

Inductive operation := OpMerge | OpCreate | OpReplace | OpDelete | OpRemove | OpUnknown.

(** [child_other.get(operation_tag, default='merge')] *)
Definition op_of (x : xml) : operation :=
  match get_attr operation_tag x with
  | None => OpMerge
  | Some "merge" => OpMerge
  | Some "create" => OpCreate
  | Some "replace" => OpReplace
  | Some "delete" => OpDelete
  | Some "remove" => OpRemove
  | Some _ => OpUnknown
  end.

(** The key leaves put into a new list entry, netconf.py:701-705; [deepcopy(None)]
    has no [iter] method, hence AttributeError. *)
Definition key_copies (cs : snode) (c : xml) : res (list xml) :=
  mapM (fun k => match find_kid k (xkids c) with
                 | None => Err AttributeError
                 | Some kn => Ok (del_attrib kn)
                 end) (s_keys (si cs)).

Definition np_container (cs : snode) : bool :=
  stype_eqb (sty cs) TContainer && negb (s_presence (si cs)).

(** Body of the loop over nodes without peer, netconf.py:485-523, with
    [_node_add_without_peer_{leaf,leaflist,container,list}], 542-755.
    [rec] is [node_add]. *)
Definition add_new (rec : snode -> xml -> xml -> res xml) (s : snode)
    (l : list ent) (p : uid * xml) : res (list ent) :=
  let '(u, c) := p in
  match op_of c with
  | OpDelete => Err ConfigDeltaError
  | OpRemove => Ok l
  | OpUnknown => Err ConfigDeltaError
  | op =>
      let! cs := schema_child s (xtag c) in
      match sty cs with
      | TLeaf => Ok (l ++ [(u, del_attrib c)])
      | TLeafList =>
          let! r := place_new cs c (u, del_attrib c) l in
          match r with Some l' => Ok l' | None => Ok l end
      | TContainer =>
          match op with
          | OpMerge => let! e := rec cs (Elem (xtag c) None [] []) c in Ok (l ++ [(u, e)])
          | _ => Ok (l ++ [(u, del_attrib c)])
          end
      | TList =>
          match op with
          | OpMerge =>
              let! ks := key_copies cs c in
              let e0 := Elem (xtag c) None [] ks in
              let! r := place_new cs c (u, e0) l in
              match r with
              | None => Err ModelMissing    (* node_add on a detached element *)
              | Some l' => let! e := rec cs e0 c in Ok (upd_uid u e l')
              end
          | _ =>
              let! r := place_new cs c (u, del_attrib c) l in
              match r with Some l' => Ok l' | None => Ok l end
          end
      | _ => Ok l
      end
  end.

(** Body of the loop over peers, netconf.py:525-540, with
    [_node_add_with_peer_{leaf,leaflist,container,list}], 757-1025. The ValueError
    is [node_sum.remove(child_self)] on an element that is no longer a child. *)
Definition add_peer (rec : snode -> xml -> xml -> res xml) (s : snode)
    (l : list ent) (p : uid * xml * xml) : res (list ent) :=
  let '(u, x, c) := p in
  let! cs := schema_child s (xtag x) in
  match sty cs with
  | TLeaf =>
      match op_of c with
      | OpMerge | OpReplace => Ok (upd_uid u (set_text (xtext c) x) l)
      | OpDelete | OpRemove => Ok (del_uid u l)
      | _ => Err ConfigDeltaError
      end
  | TLeafList =>
      match op_of c with
      | OpMerge | OpReplace => move_peer cs c (u, x) l
      | OpDelete | OpRemove => Ok (del_uid u l)
      | _ => Err ConfigDeltaError
      end
  | TContainer =>
      let gone := np_container cs && (match xkids x with [] => true | _ => false end) in
      match op_of c with
      | OpMerge =>
          let! e := rec cs x c in
          match xkids e with
          | [] => if np_container cs then Ok (del_uid u l) else Ok (upd_uid u e l)
          | _ => Ok (upd_uid u e l)
          end
      | OpReplace => if gone then Err ValueError else Ok (upd_uid u (del_attrib c) l)
      | OpDelete | OpRemove => if gone then Err ValueError else Ok (del_uid u l)
      | _ => Err ConfigDeltaError
      end
  | TList =>
      match op_of c with
      | OpDelete | OpRemove => Ok (del_uid u l)
      | op =>
          let! l' := move_peer cs c (u, x) l in
          match op with
          | OpMerge => let! e := rec cs x c in Ok (upd_uid u e l')
          | OpReplace => Ok (upd_uid u (del_attrib c) l')
          | _ => Err ConfigDeltaError
          end
      end
  | _ => Ok l
  end.

(** [node_add], netconf.py:451-540. The recursion always descends into [other], so
    [height other] is enough fuel. *)
Fixpoint node_add (fuel : nat) (s : snode) (sum other : xml) {struct fuel} : res xml :=
  match fuel with
  | 0 => Err OutOfFuel
  | S f =>
      let! g := group_kids s (xkids sum) (xkids other) in
      let! l0 := index_kids s (xkids sum) in
      let! l1 := foldM (add_new (node_add f) s) l0 (in_2_not_1 g) in
      let! l2 := foldM (add_peer (node_add f) s) l1 (in_1_and_2 g) in
      Ok (set_kids (map snd l2) sum)
  end.

(** [NetconfCalculator.add], netconf.py:195-200 *)
Definition nc_add (s : snode) (x y : xml) : res xml := node_add (height y) s x y.

(** ** Options, netconf.py:165-193 *)
Inductive pcreate := PCMerge | PCCreate | PCReplace.
Inductive preplace := PRMerge | PRReplace.
Inductive pdelete := PDDelete | PDRemove.
Inductive dtype := DMinimum | DMinimumReplace | DReplace.
Record opts := Opts {
  o_create : pcreate; o_replace : preplace; o_delete : pdelete;
  o_type : dtype; o_depth : Z }.
Definition default_opts := Opts PCMerge PRMerge PDDelete DMinimum 0.
Definition del_op (o : opts) : string := match o_delete o with PDDelete => "delete" | PDRemove => "remove" end.

(** ** set_create_operation, set_delete_operation *)

(** [default_in_use], /repo/src/ncdiff/manager.py:743-819, as positions. Simplified:
    the default of a choice is the full tag of its default case. Schema nodes are
    identified by position instead of by xpath. *)
Fixpoint default_pos (pos : list nat) (s : snode) : list (list nat) :=
  let '(SNode i k) := s in
  (fix go (n : nat) (l : list snode) : list (list nat) :=
     match l with
     | [] => []
     | c :: r =>
         (match s_type (si c), s_default (si c) with
          | TLeaf, Some _ | TLeafList, Some _ => [n :: pos]
          | TChoice, Some d =>
              (fix cases (m : nat) (ks : list snode) : list (list nat) :=
                 match ks with
                 | [] => []
                 | ca :: rs => if String.eqb (stag ca) d
                               then (m :: n :: pos) :: default_pos (m :: n :: pos) ca
                               else cases (S m) rs
                 end) 0 (let '(SNode _ ck) := c in ck)
          | TContainer, _ => if s_presence (si c) then [] else default_pos (n :: pos) c
          | _, _ => []
          end) ++ go (S n) r
     end) 0 k.

Definition pos_eqb : list nat -> list nat -> bool := list_eqb Nat.eqb.

(** [set_create_operation], netconf.py:1264-1301; [s] is the schema node of [x]. *)
Fixpoint set_create (s : snode) (x : xml) : res xml :=
  let '(Elem t tx a ks) := x in
  if np_container s then
    let! ks' := (fix go (l : list xml) : res (list xml) :=
                   match l with
                   | [] => Ok []
                   | c :: r =>
                       let! ce := schema_entry s (xtag c) in
                       let! c' := if mem pos_eqb (ce_pos ce) (default_pos [] s) then Ok c
                                  else set_create (ce_node ce) c in
                       let! r' := go r in
                       Ok (c' :: r')
                   end) ks in
    Ok (Elem t tx a ks')
  else Ok (set_attr operation_tag "create" x).

(** Key leaves of a deleted list entry, netconf.py:1158-1161; [None.nsmap] is an
    AttributeError. *)
Definition del_keys (cs : snode) (x : xml) : res (list xml) :=
  mapM (fun k => match find_kid k (xkids x) with
                 | None => Err AttributeError
                 | Some kn => Ok (Elem k (xtext kn) [] [])
                 end) (s_keys (si cs)).

(** [set_delete_operation], netconf.py:1303-1351: the children of the new node. *)
Fixpoint del_kids (s : snode) (ref : xml) : res (list xml) :=
  let '(Elem _ _ _ ks) := ref in
  (fix go (l : list xml) : res (list xml) :=
     match l with
     | [] => Ok []
     | c :: r =>
         let! cs := schema_child s (xtag c) in
         let! d :=
           match sty cs with
           | TLeafList => Ok (Elem (xtag c) (xtext c) [(operation_tag, "delete")] [])
           | TList => let! kk := del_keys cs c in
                      Ok (Elem (xtag c) None [(operation_tag, "delete")] kk)
           | _ => if np_container cs
                  then let! kk := del_kids cs c in Ok (Elem (xtag c) None [] kk)
                  else Ok (Elem (xtag c) None [(operation_tag, "delete")] [])
           end in
         let! r' := go r in
         Ok (d :: r')
     end) ks.

(** The node that deletes [c], netconf.py:1146-1169 (also 363-382 and 1092-1117). *)
Definition mk_del (o : opts) (cs : snode) (c : xml) : res xml :=
  match sty cs with
  | TLeafList => Ok (Elem (xtag c) (xtext c) [(operation_tag, del_op o)] [])
  | TList => let! kk := del_keys cs c in
             Ok (Elem (xtag c) None [(operation_tag, del_op o)] kk)
  | _ => if np_container cs && (match o_delete o with PDDelete => true | _ => false end)
         then let! kk := del_kids cs c in Ok (Elem (xtag c) None [] kk)
         else Ok (Elem (xtag c) None [(operation_tag, del_op o)] [])
  end.

(** ** Working lists of node_sub *)

(** A child during [node_sub]: [w_orig] if it was a child when the call began, as
    opposed to an element created by the call. *)
Record went := W { w_orig : bool; w_uid : uid; w_xml : xml }.
Definition w_tag (t : string) (w : went) : bool := String.eqb (xtag (w_xml w)) t.
Definition w_upd (u : uid) (x : xml) (l : list went) : list went :=
  map (fun w => if uid_eqb u (w_uid w) then W (w_orig w) u x else w) l.
Definition w_del (u : uid) (l : list went) : list went :=
  filter (fun w => negb (uid_eqb u (w_uid w))) l.
Definition w_init (l : list ent) : list went := map (fun e => W true (fst e) (snd e)) l.

(** [ordered_by_user]: tag -> 'leaf-list' ([None]) or the list of keys *)
Definition obu := list (string * option (list string)).
Definition obu_add (cs : snode) (m : obu) : obu :=
  if is_user_seq cs then
    match assoc String.eqb (stag cs) m with
    | Some _ => m
    | None => m ++ [(stag cs, match sty cs with TList => Some (s_keys (si cs)) | _ => None end)]
    end
  else m.

(** The insert, value and key attributes of one sequence, netconf.py:1238-1262
    (also 426-449). The TypeError is [item.set(value_tag, None)]. The sequence is
    [_get_sequence], calculator.py:77-113: the children with the tag that are in the
    scope, that is, the original children and not the ones put in by the diff; here
    these are the entries with [w_orig]. *)
Fixpoint seq_attrs (t : string) (kind : option (list string)) (prev : option xml)
    (l : list went) : res (list went) :=
  match l with
  | [] => Ok []
  | w :: r =>
      if w_orig w && w_tag t w then
        let x := w_xml w in
        let! x' :=
          match prev with
          | None => Ok (set_attr insert_tag "first" x)
          | Some p =>
              let x1 := set_attr insert_tag "after" x in
              match kind with
              | None => match xtext p with
                        | None => Err TypeError
                        | Some v => Ok (set_attr value_tag v x1)
                        end
              | Some keys => let! ps := pred_string keys p in Ok (set_attr key_tag ps x1)
              end
          end in
        let! r' := seq_attrs t kind (Some x) r in
        Ok (W (w_orig w) (w_uid w) x' :: r')
      else let! r' := seq_attrs t kind prev r in Ok (w :: r')
  end.
Definition all_seq_attrs (m : obu) (l : list went) : res (list went) :=
  foldM (fun l p => seq_attrs (fst p) (snd p) None l) l m.

(** [_node_le] in both directions *)
Definition node_eq (s : snode) (x y : xml) : res bool := rand (node_le s x y) (node_le s y x).

(** ** get_config_replace, netconf.py:316-449 *)

Record rstate := RState { r_self : list went; r_obu : obu }.

(** netconf.py:338-353 *)
Definition repl_only_self (s : snode) (st : rstate) (p : uid * xml) : res rstate :=
  let '(u, c) := p in
  let! cs := schema_child s (xtag c) in
  Ok (RState (w_upd u (set_attr operation_tag "replace" c) (r_self st)) (obu_add cs (r_obu st))).

(** netconf.py:355-382 *)
Definition repl_only_other (o : opts) (s : snode) (st : rstate) (p : uid * xml) : res rstate :=
  let '(u, c) := p in
  let! cs := schema_child s (xtag c) in
  let! d := mk_del o cs c in
  Ok (RState (ins_after_last (w_tag (xtag c)) (W false u d) (r_self st)) (r_obu st)).

(** netconf.py:384-421 *)
Definition repl_both (s : snode) (st : rstate) (p : uid * xml * xml) : res rstate :=
  let '(u, a, b) := p in
  let a' := set_attr operation_tag "replace" a in
  let b' := set_attr operation_tag "replace" b in
  let keep := w_upd u a' (r_self st) in
  let! cs := schema_child s (xtag a) in
  match sty cs with
  | TLeaf =>
      let! same := same_text cs a b in
      if same then
        if s_is_key (si cs) then Ok (RState (w_upd u (pop_attr operation_tag a') (r_self st)) (r_obu st))
        else Ok (RState (w_del u (r_self st)) (r_obu st))
      else Ok (RState keep (r_obu st))
  | TLeafList =>
      if s_user (si cs) then Ok (RState keep (obu_add cs (r_obu st)))
      else Ok (RState (w_del u (r_self st)) (r_obu st))
  | TContainer =>
      let! e := node_eq cs a' b' in
      if e then Ok (RState (w_del u (r_self st)) (r_obu st)) else Ok (RState keep (r_obu st))
  | TList =>
      let m := obu_add cs (r_obu st) in
      let! e := node_eq cs a' b' in
      if e && negb (s_user (si cs)) then Ok (RState (w_del u (r_self st)) m) else Ok (RState keep m)
  | _ => Err ModelError
  end.

(** Only [node_self] is returned: what is done to [node_other] (an operation
    attribute on the peers, taken into account in the comparison above) is not
    observable. *)
Definition config_replace (o : opts) (s : snode) (self other : xml) : res xml :=
  let! g := group_kids s (xkids self) (xkids other) in
  let! l0 := index_kids s (xkids self) in
  let! st1 := foldM (repl_only_self s) (RState (w_init l0) []) (in_1_not_2 g) in
  let! st2 := foldM (repl_only_other o s) st1 (in_2_not_1 g) in
  let! st3 := foldM (repl_both s) st2 (in_1_and_2 g) in
  let! l := all_seq_attrs (r_obu st3) (r_self st3) in
  Ok (set_kids (map w_xml l) self).

(** ** node_sub, netconf.py:1027-1262 *)

(** [_same_leaf_list], netconf.py:1388-1433 *)
Definition same_leaf_list (s : snode) (t : string) (l1 l2 : list xml) : res bool :=
  let k1 := kids_tagged t l1 in
  let k2 := kids_tagged t l2 in
  let! cs := schema_child s t in
  let v1 := map (parse_text cs) k1 in
  let v2 := map (parse_text cs) k2 in
  if s_user (si cs) then Ok (list_eqb ostr_eqb v1 v2)
  else Ok (forallb (fun v => mem ostr_eqb v v2) v1 && forallb (fun v => mem ostr_eqb v v1) v2).

(** netconf.py:1056-1064 *)
Definition leaf_list_tags (s : snode) (l : list xml) : res (list string) :=
  let! ts := mapM (fun c => let! cs := schema_child s (xtag c) in
                            Ok (match sty cs with TLeafList => [xtag c] | _ => [] end)) l in
  Ok (concat ts).

(** netconf.py:1056-1072: whether a common leaf-list differs *)
Definition leaf_lists_differ (s : snode) (l1 l2 : list xml) : res bool :=
  let! t1 := leaf_list_tags s l1 in
  let! t2 := leaf_list_tags s l2 in
  let! bs := mapM (fun t => same_leaf_list s t l1 l2) (filter (fun t => mem String.eqb t t2) t1) in
  Ok (negb (forallb (fun b => b) bs)).

(** State of the loops: children of [node_self] and [node_other],
    [ordered_by_user], [choice_nodes] (position of the choice -> position of the
    case, latest first). *)
Record sstate := SState {
  ss_self : list went; ss_other : list went; ss_obu : obu;
  ss_cho : list (list nat * list nat) }.

(** netconf.py:1081-1086 and 1125-1128 *)
Definition mark_create (o : opts) (cs : snode) (c : xml) : res xml :=
  match o_create o with
  | PCReplace => Ok (set_attr operation_tag "replace" c)
  | PCCreate => set_create cs c
  | PCMerge => Ok c
  end.

(** Positions of the case and of the choice of a schema entry: [getparent()] and
    [getparent().getparent()]. *)
Definition case_pos (ce : centry) : list nat := tl (ce_pos ce).
Definition choice_pos (ce : centry) : list nat := tl (tl (ce_pos ce)).

(** netconf.py:1078-1121 *)
Definition sub_only_self (o : opts) (s : snode) (st : sstate) (p : uid * xml) : res sstate :=
  let '(u, c) := p in
  let! ce := schema_entry s (xtag c) in
  let cs := ce_node ce in
  let! c' := match o_type o with
             | DReplace => Ok (set_attr operation_tag "replace" c)
             | _ => mark_create o cs c
             end in
  let! d := mk_del o cs c in
  Ok (SState (w_upd u c' (ss_self st))
             (ins_after_last (w_tag (xtag c)) (W false u d) (ss_other st))
             (obu_add cs (ss_obu st))
             (if ce_case ce then (choice_pos ce, case_pos ce) :: ss_cho st else ss_cho st)).

(** Whether the deleting node is put into the delta when there are no siblings of
    its tag, netconf.py:1134-1145 *)
Definition case_allows (ce : centry) (cho : list (list nat * list nat)) : bool :=
  if ce_case ce then
    match assoc pos_eqb (choice_pos ce) cho with
    | None => true
    | Some cp => pos_eqb cp (case_pos ce)
    end
  else true.

(** netconf.py:1122-1169 *)
Definition sub_only_other (o : opts) (s : snode) (st : sstate) (p : uid * xml) : res sstate :=
  let '(u, c) := p in
  let! ce := schema_entry s (xtag c) in
  let cs := ce_node ce in
  let! c' := mark_create o cs c in
  let! d := mk_del o cs c in
  let self' :=
    if existsb (w_tag (xtag c)) (ss_self st) || case_allows ce (ss_cho st)
    then ins_after_last (w_tag (xtag c)) (W false u d) (ss_self st)
    else ss_self st in
  Ok (SState self' (w_upd u c' (ss_other st)) (obu_add cs (ss_obu st)) (ss_cho st)).

(** netconf.py:1208-1215: the key leaves of an entry *)
Definition strip_to_keys (s : snode) (x : xml) : res xml :=
  let! ks := mapM (fun c => let! cs := schema_child s (xtag c) in
                            Ok (if s_is_key (si cs) then [c] else [])) (xkids x) in
  Ok (set_kids (concat ks) x).

(** netconf.py:1170-1230; [rec] is [node_sub] one level deeper, or
    [get_config_replace]. *)
Definition sub_both (o : opts) (rec : snode -> xml -> xml -> res (xml * xml)) (s : snode)
    (st : sstate) (p : uid * xml * xml) : res sstate :=
  let '(u, a, b) := p in
  let! cs := schema_child s (xtag a) in
  let drop m := Ok (SState (w_del u (ss_self st)) (w_del u (ss_other st)) m (ss_cho st)) in
  let put a' b' m := Ok (SState (w_upd u a' (ss_self st)) (w_upd u b' (ss_other st)) m (ss_cho st)) in
  match sty cs with
  | TLeaf =>
      let! same := same_text cs a b in
      if same then
        if s_is_key (si cs) then Ok st else drop (ss_obu st)
      else
        match o_replace o with
        | PRMerge => Ok st
        | PRReplace => put (set_attr operation_tag "replace" a)
                           (set_attr operation_tag "replace" b) (ss_obu st)
        end
  | TLeafList =>
      if s_user (si cs) then put a b (obu_add cs (ss_obu st)) else drop (ss_obu st)
  | TContainer =>
      let! e := node_eq cs a b in
      if e then drop (ss_obu st)
      else let! ab := rec cs a b in put (fst ab) (snd ab) (ss_obu st)
  | TList =>
      let m := obu_add cs (ss_obu st) in
      let! e := node_eq cs a b in
      if e then
        if s_user (si cs) then
          let! a' := strip_to_keys cs a in
          let! b' := strip_to_keys cs b in
          put a' b' m
        else drop m
      else let! ab := rec cs a b in put (fst ab) (snd ab) m
  | _ => Err ModelError
  end.

(** [node_sub], netconf.py:1027-1262. Returns both modified nodes. The recursion
    descends into [self], so [height self] is enough fuel. Simplified: the sequences of
    [self] are all marked before those of [other], while the code takes both for one
    tag after the other (1233-1262); only which of two errors is raised can differ. *)
Fixpoint node_sub (fuel : nat) (o : opts) (s : snode) (depth : Z) (self other : xml)
    {struct fuel} : res (xml * xml) :=
  match fuel with
  | 0 => Err OutOfFuel
  | S f =>
      let! differ := match o_replace o with
                     | PRMerge => Ok false
                     | PRReplace => leaf_lists_differ s (xkids self) (xkids other)
                     end in
      if differ then Ok (set_attr operation_tag "replace" self, set_attr operation_tag "replace" other)
      else
        let! g := group_kids s (xkids self) (xkids other) in
        let! l1 := index_kids s (xkids self) in
        let! l2 := index_kids s (xkids other) in
        let rec cs a b :=
          match o_type o with
          | DReplace => if Z.eqb (o_depth o) (depth + 1)
                        then let! a' := config_replace o cs a b in Ok (a', b)
                        else node_sub f o cs (depth + 1) a b
          | _ => node_sub f o cs (depth + 1) a b
          end in
        let! st1 := foldM (sub_only_self o s) (SState (w_init l1) (w_init l2) [] []) (in_1_not_2 g) in
        let! st2 := foldM (sub_only_other o s) st1 (in_2_not_1 g) in
        let! st3 := foldM (sub_both o rec s) st2 (in_1_and_2 g) in
        let! ls := all_seq_attrs (ss_obu st3) (ss_self st3) in
        let! lo := all_seq_attrs (ss_obu st3) (ss_other st3) in
        Ok (set_kids (map w_xml ls) self, set_kids (map w_xml lo) other)
  end.

(** [add_attribute_at_depth], netconf.py:219-252; the queue loop is modelled in
    ReorderM.v and proved equal to this recursive form. *)
Fixpoint mark_depth (d : Z) (x : xml) : xml :=
  let '(Elem t tx a k) := x in
  let k' := map (mark_depth (d - 1)) k in
  if Z.eqb d 0 then set_attr "operation" "replace" (Elem t tx a k') else Elem t tx a k'.

(** [NetconfCalculator.sub], netconf.py:202-217. [self] is the destination, [other]
    the source. Simplified: [replace_xpath] is None (MarkM.v has it). *)
Definition nc_sub (o : opts) (s : snode) (self other : xml) : res xml :=
  let! d := match o_type o with
            | DReplace => if Z.eqb (o_depth o) 0 then config_replace o s self other
                          else let! p := node_sub (height self) o s 0 self other in Ok (fst p)
            | _ => let! p := node_sub (height self) o s 0 self other in Ok (fst p)
            end in
  match o_type o with
  | DMinimumReplace => Ok (mark_depth (o_depth o + 1) d)
  | _ => Ok d
  end.
