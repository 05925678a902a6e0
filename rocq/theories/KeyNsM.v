(** Namespaces in the key attribute of entries of user-ordered lists:
    /repo/src/ncdiff/netconf.py:1354-1386 ([_url_to_prefix]) and its users. NetconfM.v
    keeps the names of keys in [{url}name] notation; here they are written with the
    prefixes of one element and read with the prefixes of another. No proofs in this
    file. *)
From Coq Require Import String Ascii List Bool Arith.
From Verif Require Import Base XmlM CalcM NetconfM TagM RefM.
Import ListNotations.
Open Scope string_scope.
Open Scope list_scope.
Open Scope nat_scope.

(** [_url_to_prefix(node, id)] where [m] is [node.nsmap], netconf.py:1354-1386. *)
Definition url_prefix_id (m : nsmap) (id : string) : string :=
  match re_brace id with
  | Some (u, n) =>
      match url_to_prefix m u with
      | Some None => n
      | Some (Some p) => (p ++ ":" ++ n)%string
      | None => id
      end
  | None => id
  end.

(** The key attribute made from the entry [x] before this one, netconf.py:1253-1262 and
    440-449. [nm k] is the [nsmap] of the key node [x.find(k)]; a key without text is
    written as None. *)
Fixpoint ns_pred_string (nm : string -> nsmap) (keys : list string) (x : xml) : res string :=
  match keys with
  | [] => Ok ""
  | k :: r =>
      match find_kid k (xkids x) with
      | None => Err AttributeError
      | Some kn =>
          let! rest := ns_pred_string nm r x in
          Ok ("[" ++ url_prefix_id (nm k) k ++ "='" ++ (match xtext kn with None => "None" | Some t => t end)
              ++ "']" ++ rest)%string
      end
  end.

(** [str.isdecimal] for ASCII strings. *)
Fixpoint digits (s : string) : bool :=
  match s with
  | EmptyString => true
  | String a r => (48 <=? nat_of_ascii a) && (nat_of_ascii a <=? 57) && digits r
  end.
Definition isdecimal (s : string) : bool :=
  match s with EmptyString => false | _ => digits s end.

(** How ElementPath of lxml ([xpath_tokenizer] with [namespaces=m]) reads the name of an
    element: not at all if it starts with a brace, else at the first colon, else in the
    default namespace. An empty default namespace is none. *)
Definition ns_name (m : nsmap) (s : string) : res string :=
  match s with
  | String "{"%char _ => Ok s
  | _ =>
      match split_at ":"%char s with
      | Some (p, n) =>
          match assoc ostr_eqb (Some p) m with
          | Some u => Ok ("{" ++ u ++ "}" ++ n)%string
          | None => Err SyntaxError
          end
      | None =>
          if isdecimal s then Ok s else
          match assoc ostr_eqb None m with
          | None | Some EmptyString => Ok s
          | Some u => Ok ("{" ++ u ++ "}" ++ s)%string
          end
      end
  end.

(** [node_sum.find(child_other.tag + child_other.get(key_tag),
    namespaces=child_other.nsmap)], netconf.py:729-731, 741-743, 985-987, 997-999: [m] is
    the [nsmap] of the entry that carries the attribute. Simplified as [find_key]. *)
Definition ns_find_key (m : nsmap) (t p : string) (l : list ent) : res (option uid) :=
  match parse_preds (String.length p) p with
  | None => Err SyntaxError
  | Some ps =>
      let! qs := mapM (fun q => let! n := ns_name m (fst q) in Ok (n, snd q)) ps in
      Ok (option_map fst (find (fun e => has_tag t e && matches_preds qs (snd e)) l))
  end.

(** The sibling named by the entry [c] of a list, as [ref_sibling] but with the prefixes
    [m] of [c], netconf.py:724-747 and 980-1003. *)
Definition ns_ref_sibling (m : nsmap) (c : xml) (l : list ent) : res uid :=
  match get_attr key_tag c with
  | None => Err ConfigDeltaError
  | Some p => let! o := ns_find_key m (xtag c) p l in
              match o with
              | None => Err ConfigDeltaError
              | Some u => Ok u
              end
  end.
