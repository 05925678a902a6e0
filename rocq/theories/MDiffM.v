(** Comparison of two compiled models (/repo/src/ncdiff/model.py, class ModelDiff). A
    schema tree is taken as the plain XML tree that the code works on. No proofs in
    this file. *)
From Coq Require Import String List Bool.
From Verif Require Import Base XmlM.
Import ListNotations.
Open Scope string_scope.
Open Scope list_scope.

(** [node.findall(tag)]: the children with a tag. *)
Definition findall (t : string) (x : xml) : list xml :=
  filter (fun c => String.eqb (xtag c) t) (xkids x).

(** [get_peer], model.py:1689-1716. *)
Definition get_peer (t : string) (x : xml) : res (option xml) :=
  match findall t x with
  | [] => Ok None
  | [p] => Ok (Some p)
  | _ => Err ModelError
  end.

(** [for a in node1.attrib: ...], model.py:1771-1774. *)
Definition attrs_less (x y : xml) : bool :=
  forallb (fun p => match get_attr (fst p) y with
                    | Some v => ostr_eqb (get_attr (fst p) x) (Some v)
                    | None => false
                    end) (xattrs x).

(** [node_less], model.py:1746-1785. *)
Fixpoint node_less (x y : xml) : res bool :=
  if negb (String.eqb (xtag x) (xtag y)) then Ok false
  else if negb (ostr_eqb (xtext x) (xtext y)) then Ok false
  else if negb (attrs_less x y) then Ok false
  else
    let '(Elem _ _ _ ks) := x in
    (fix go (l : list xml) : res bool :=
       match l with
       | [] => Ok true
       | c :: r =>
           match findall (xtag c) y with
           | [] => Ok false
           | [p] => let! b := node_less c p in if b then go r else Ok false
           | _ => Err ModelError
           end
       end) ks.

(** [node_equal], model.py:1719-1743: the second call is made only if the first says
    True. *)
Definition node_equal (x y : xml) : res bool :=
  let! a := node_less x y in if a then node_less y x else Ok false.

(** [known_attrib], model.py:1676-1678. *)
Definition known_attrib : list string :=
  ["type"; "access"; "mandatory"; "presence"; "values"; "key"; "is_key"; "prefix"; "datatype";
   "if-feature"; "ordered-by"; "default"].

(** [process_attrib], model.py:1654-1686: on the element and all its descendants. *)
Definition process_attrs (msg : string) (a : list (string * string)) : list (string * string) :=
  let a' := filter (fun p => mem String.eqb (fst p) known_attrib) a in
  if String.eqb msg "" then a' else dset String.eqb "diff" msg a'.
Fixpoint process_attrib (msg : string) (x : xml) : xml :=
  let '(Elem t tx a ks) := x in Elem t tx (process_attrs msg a) (map (process_attrib msg) ks).

(** [copy_subtree], model.py:1596-1622, and [copy_node], model.py:1624-1651: the element
    to append. *)
Definition copy_subtree (x : xml) (msg : string) : xml := process_attrib msg x.
Definition copy_node (x : xml) (msg : string) : xml :=
  process_attrib msg (Elem (xtag x) None (xattrs x) []).

Definition is_leaf_type (ty : string) : bool := String.eqb ty "leaf-list" || String.eqb ty "leaf".

(** The second loop of [compare_nodes], model.py:1591-1594. *)
Fixpoint only_in_first (n2 : xml) (l : list xml) : res (list xml) :=
  match l with
  | [] => Ok []
  | c :: r =>
      let! p := get_peer (xtag c) n2 in
      let! rest := only_in_first n2 r in
      Ok (match p with None => copy_subtree c "deleted" :: rest | Some _ => rest end)
  end.

(** [compare_nodes], model.py:1554-1594: the children appended to [ret]. *)
Fixpoint compare_nodes (n2 n1 : xml) : res (list xml) :=
  let '(Elem _ _ _ k2) := n2 in
  let! new :=
    (fix go (l : list xml) : res (list xml) :=
       match l with
       | [] => Ok []
       | c :: r =>
           let! p := get_peer (xtag c) n1 in
           let! here :=
             match p with
             | None => Ok [copy_subtree c "added"]
             | Some q =>
                 let! e := node_equal q c in
                 if e then Ok []
                 else match get_attr "type" c with
                      | None => Err KeyError
                      | Some ty =>
                          if is_leaf_type ty then Ok [copy_node c "modified"]
                          else let! ks := compare_nodes c q in Ok [set_kids ks (copy_node c "")]
                      end
             end in
           let! rest := go r in
           Ok (here ++ rest)
       end) k2 in
  let! old := only_in_first n2 (xkids n1) in
  Ok (new ++ old).

(** [ModelDiff.__init__], model.py:1363-1378: [same] tells whether both arguments are the
    same object. *)
Definition model_diff (same : bool) (t1 t2 : xml) : res xml :=
  if String.eqb (xtag t1) (xtag t2) then
    if same then Ok (Elem (xtag t1) None [] [])
    else let! ks := compare_nodes t2 t1 in Ok (Elem (xtag t1) None [] ks)
  else Err ValueError.

(** [__bool__], model.py:1380-1384. *)
Definition nonempty (d : xml) : bool := match xkids d with [] => false | _ => true end.

Definition is_inner_type (ty : option string) : bool :=
  match ty with
  | Some t => String.eqb t "container" || String.eqb t "list" || String.eqb t "choice" || String.eqb t "case"
  | None => false
  end.

(** [if diff and diff != msg], model.py:1811. *)
Definition other_diff (msg : string) (c : xml) : bool :=
  match get_attr "diff" c with
  | Some d => negb (String.eqb d "") && negb (String.eqb d msg)
  | None => false
  end.

(** [trim], model.py:1788-1823: the element after trimming. *)
Fixpoint trim (msg : string) (x : xml) : xml :=
  let '(Elem t tx a ks) := x in
  Elem t tx a
    ((fix go (l : list xml) : list xml :=
        match l with
        | [] => []
        | c :: r =>
            if other_diff msg c then go r
            else if is_inner_type (get_attr "type" c) then
              let c' := trim msg c in
              if nonempty c' then c' :: go r else go r
            else c :: go r
        end) ks).

(** [added], [deleted], [modified], model.py:1386-1408: [None], or the tree that is
    printed. *)
Definition part (msg : string) (d : xml) : option xml :=
  let d' := trim msg d in if nonempty d' then Some d' else None.
