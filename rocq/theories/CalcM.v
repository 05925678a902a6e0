(** Model of /repo/src/ncdiff/calculator.py: pairing of siblings and comparison. *)
From Coq Require Import String Ascii List Bool Arith ZArith Lia.
From Verif Require Import Base XmlM.
Import ListNotations.
Open Scope string_scope.
Open Scope list_scope.

(** The identity of a node among its siblings, calculator.py:184-196
    ([build_unique_id]): the tag, and the text of a leaf-list entry or the key
    texts of a list entry. *)
Inductive ukey := KNone | KText (t : option string) | KTup (l : list (option string)).
Definition uid := (string * ukey)%type.

Definition ukey_eqb (a b : ukey) : bool :=
  match a, b with
  | KNone, KNone => true
  | KText x, KText y => ostr_eqb x y
  | KTup x, KTup y => list_eqb ostr_eqb x y
  | _, _ => false
  end.
Definition uid_eqb (a b : uid) : bool := String.eqb (fst a) (fst b) && ukey_eqb (snd a) (snd b).

(** [node.iterchildren(tag=t)] / [node.findall(t)] *)
Definition kids_tagged (t : string) (l : list xml) : list xml :=
  filter (fun c => String.eqb (xtag c) t) l.
(** [node.find(t)] *)
Definition find_kid (t : string) (l : list xml) : option xml :=
  find (fun c => String.eqb (xtag c) t) l.

(** [_parse_text] given the schema node, calculator.py:380-417. Simplified: data
    types other than identityref and instance-identifier (see RefM.v for
    those, and CacheM.v and RefsM.v for the comparison with them). *)
Definition parse_text (s : snode) (x : xml) : option string :=
  match xtext x with
  | None => None
  | Some t => match sty s with TContainer => None | _ => Some t end
  end.

(** [find_one_child], calculator.py:141-154 *)
Definition find_one_child (k : string) (x : xml) : res xml :=
  match kids_tagged k (xkids x) with
  | [c] => Ok c
  | _ => Err ConfigError
  end.

(** [build_index_tuple], calculator.py:156-163: the schema node handed to
    [_parse_text] is the one of the list. *)
Definition key_tuple (cs : snode) (x : xml) : res (list (option string)) :=
  mapM (fun k => let! c := find_one_child k x in Ok (parse_text cs c)) (s_keys (si cs)).

(** [build_unique_id], calculator.py:184-196; [s] is the schema node of the parent. *)
Definition uid_of (s : snode) (x : xml) : res uid :=
  let! cs := schema_child s (xtag x) in
  match sty cs with
  | TLeafList => Ok (xtag x, KText (parse_text cs x))
  | TList => let! ks := key_tuple cs x in Ok (xtag x, KTup ks)
  | _ => Ok (xtag x, KNone)
  end.

(** The two hash maps of [_pair_children], calculator.py:198-214. *)
Fixpoint index_from (s : snode) (seen : list uid) (l : list xml) : res (list (uid * xml)) :=
  match l with
  | [] => Ok []
  | c :: r =>
      let! u := uid_of s c in
      if mem uid_eqb u seen then Err ConfigError
      else let! es := index_from s (u :: seen) r in Ok ((u, c) :: es)
  end.
Definition index_kids (s : snode) (l : list xml) : res (list (uid * xml)) := index_from s [] l.

(** [_pair_children], calculator.py:115-220. The identity is kept with each pair. *)
Definition pair_children (s : snode) (l1 l2 : list xml)
  : res (list (uid * option xml * option xml)) :=
  let! ones := index_kids s l1 in
  let! twos := index_kids s l2 in
  let keys := (map fst ones ++
               filter (fun u => negb (mem uid_eqb u (map fst ones))) (map fst twos))%list in
  Ok (map (fun u => (u, assoc uid_eqb u ones, assoc uid_eqb u twos)) keys).

(** [_group_kids], calculator.py:222-263 *)
Record groups := Groups {
  in_1_not_2 : list (uid * xml);
  in_2_not_1 : list (uid * xml);
  in_1_and_2 : list (uid * xml * xml) }.

Definition group_kids (s : snode) (l1 l2 : list xml) : res groups :=
  let! ps := pair_children s l1 l2 in
  Ok (fold_right (fun p g =>
        match p with
        | (u, None, Some b) => Groups (in_1_not_2 g) ((u, b) :: in_2_not_1 g) (in_1_and_2 g)
        | (u, Some a, None) => Groups ((u, a) :: in_1_not_2 g) (in_2_not_1 g) (in_1_and_2 g)
        | (u, Some a, Some b) => Groups (in_1_not_2 g) (in_2_not_1 g) ((u, a, b) :: in_1_and_2 g)
        | (_, None, None) => g
        end) (Groups [] [] []) ps).

(** [_same_text], calculator.py:419-442. For a root with text the schema lookup of
    [_parse_text] raises ModelMissing. *)
Definition same_text (s : snode) (x y : xml) : res bool :=
  match xtext x, xtext y with
  | None, None => Ok true
  | _, _ => match sty s with
            | TRoot => Err ModelMissing
            | _ => Ok (ostr_eqb (parse_text s x) (parse_text s y))
            end
  end.

(** Attribute check of [_node_le], calculator.py:539-542 *)
Definition attrs_sub (a b : list (string * string)) : bool :=
  forallb (fun p => ostr_eqb (assoc String.eqb (fst p) a) (assoc String.eqb (fst p) b)) a.

(** Identities with tag [t] that precede identity [u], in document order. *)
Fixpoint before_uid (t : string) (u : uid) (l : list uid) : list uid :=
  match l with
  | [] => []
  | v :: r => if uid_eqb v u then [] else
              if String.eqb (fst v) t then v :: before_uid t u r else before_uid t u r
  end.

Definition is_user_seq (s : snode) : bool :=
  s_user (si s) && (stype_eqb (sty s) TLeafList || stype_eqb (sty s) TList).

(** [_node_le], calculator.py:511-579. [done] holds the identities of the siblings
    already passed, nearest first. Simplified: the peer of an elder sibling
    ([_get_peers], calculator.py:287-360) is looked up by identity, which is the
    same for the data types modelled here since the identities were just found to
    be unique: CacheM.v has the code as written and C87 proves that it gives the
    same. *)
Fixpoint node_le (s : snode) (x y : xml) {struct x} : res bool :=
  let '(Elem t tx at_ ks) := x in
  if negb (String.eqb t (xtag y)) then Ok false else
  let! st := same_text s x y in
  if negb st then Ok false else
  if negb (attrs_sub at_ (xattrs y)) then Ok false else
  let! ones := index_kids s ks in
  let! twos := index_kids s (xkids y) in
  (fix go (done : list uid) (l : list xml) {struct l} : res bool :=
     match l with
     | [] => Ok true
     | c :: r =>
         let! u := uid_of s c in
         match assoc uid_eqb u twos with
         | None => Ok false
         | Some c' =>
             let! cs := schema_child s (xtag c) in
             let ordered :=
               if is_user_seq cs then
                 match find (fun v => String.eqb (fst v) (xtag c)) done with
                 | None => true
                 | Some elder => mem uid_eqb elder (before_uid (xtag c) u (map fst twos))
                 end
               else true in
             if negb ordered then Ok false else
             let! b := node_le cs c c' in
             if b then go (u :: done) r else Ok false
         end
     end) [] ks.

(** Python's [a and b], [not a] on results that may be exceptions *)
Definition rand (a : res bool) (b : res bool) : res bool :=
  let! x := a in if x then b else Ok false.
Definition rnot (a : res bool) : res bool := let! x := a in Ok (negb x).
Definition ror (a : res bool) (b : res bool) : res bool :=
  let! x := a in if x then Ok true else b.

(** calculator.py:483-509 *)
Definition cmp_le s x y := node_le s x y.
Definition cmp_lt s x y := rand (node_le s x y) (rnot (node_le s y x)).
Definition cmp_ge s x y := node_le s y x.
Definition cmp_gt s x y := rand (node_le s y x) (rnot (node_le s x y)).
Definition cmp_eq s x y := rand (node_le s x y) (node_le s y x).
Definition cmp_ne s x y := ror (rnot (node_le s x y)) (rnot (node_le s y x)).
