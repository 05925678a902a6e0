(** Specification: a NETCONF server that executes an edit-config.

    The edit is executed in document order: RFC 6241 section 7.2 (operations), RFC 7950
    sections 7.5.8, 7.6.7, 7.7.9, 7.8.6 (containers, leaves, leaf-lists, lists, the insert
    attribute) and 7.9 (creating a node of one case deletes the nodes of all other cases).
    Nothing of the calculators is used. *)
From Coq Require Import String Ascii List Bool Arith ZArith Lia.
From Verif Require Import Base XmlM CalcM NetconfM DataSpec DeltaSpec EditSpec.
Import ListNotations.
Open Scope string_scope.
Open Scope list_scope.

(** ** The schema *)

(** Data definitions of a schema node, through choices and cases *)
Fixpoint datas (k : snode) : list snode :=
  let '(SNode i ks) := k in
  match s_type i with
  | TChoice | TCase => flat_map datas ks
  | _ => [k]
  end.
Definition defs (s : snode) : list snode := flat_map datas (skids s).
Definition lookup (s : snode) (t : string) : option snode := find (fun k => String.eqb (stag k) t) (defs s).

(** [t] and [t'] are defined in different branches of one choice, at any depth. *)
Definition has (t : string) (k : snode) : bool := existsb (fun d => String.eqb (stag d) t) (datas k).
Fixpoint apart (t t' : string) (l : list snode) : bool :=
  match l with
  | [] => false
  | k :: r => (has t k && existsb (has t') r) || (has t' k && existsb (has t) r) || apart t t' r
  end.
Fixpoint excl (t t' : string) (k : snode) : bool :=
  let '(SNode i ks) := k in
  match s_type i with
  | TChoice => apart t t' ks || existsb (excl t t') ks
  | TCase => existsb (excl t t') ks
  | _ => false
  end.
Definition excludes (s : snode) (t t' : string) : bool := existsb (excl t t') (skids s).

(** ** Entries *)

Definition texts_of (k : string) (x : xml) : list (option string) :=
  map xtext (filter (fun c => String.eqb (xtag c) k) (xkids x)).
Definition same_entry (cs : snode) (x y : xml) : bool :=
  String.eqb (xtag x) (xtag y) &&
  match sty cs with
  | TLeafList => ostr_eqb (xtext x) (xtext y)
  | TList => forallb (fun k => list_eqb ostr_eqb (texts_of k x) (texts_of k y)) (s_keys (si cs))
  | _ => true
  end.

Definition user_entries (cs : snode) : bool :=
  match sty cs with TLeafList | TList => s_user (si cs) | _ => false end.

(** A tree without attributes *)
Fixpoint plain (x : xml) : xml := let '(Elem t tx _ ks) := x in Elem t tx [] (map plain ks).

(** The children that a new instance has before the edit is merged into it: the key leaves
    of a list entry. *)
Definition new_kids (cs : snode) (c : xml) : list xml :=
  match sty cs with
  | TList => flat_map (fun k => match find (fun x => String.eqb (xtag x) k) (xkids c) with
                                | Some x => [plain x]
                                | None => []
                                end) (s_keys (si cs))
  | _ => []
  end.

(** The key attribute that names an entry; values with apostrophes cannot be written. *)
Fixpoint key_preds (keys : list string) (x : xml) : option string :=
  match keys with
  | [] => Some ""
  | k :: r =>
      match texts_of k x, key_preds r x with
      | [Some v], Some p => if has_char "'" v then None else Some ("[" ++ k ++ "='" ++ v ++ "']" ++ p)%string
      | _, _ => None
      end
  end.
(** [y] is the entry that the value or key attribute of [c] names. *)
Definition named (cs : snode) (c y : xml) : bool :=
  String.eqb (xtag y) (xtag c) &&
  match sty cs with
  | TLeafList => match get_attr value_tag c, xtext y with
                 | Some v, Some w => String.eqb v w
                 | _, _ => false
                 end
  | _ => match get_attr key_tag c, key_preds (s_keys (si cs)) y with
         | Some v, Some w => String.eqb v w
         | _, _ => false
         end
  end.
Fixpoint insert_after (p : xml -> bool) (n : xml) (l : list xml) : option (list xml) :=
  match l with
  | [] => None
  | y :: r => if p y then Some (y :: n :: r)
              else match insert_after p n r with Some r' => Some (y :: r') | None => None end
  end.
Fixpoint insert_before (p : xml -> bool) (n : xml) (l : list xml) : option (list xml) :=
  match l with
  | [] => None
  | y :: r => if p y then Some (n :: y :: r)
              else match insert_before p n r with Some r' => Some (y :: r') | None => None end
  end.

(** ** Execution: [None] if the server answers with an error *)

(** The node [n] takes its place among the siblings [l] as [c] asks. *)
Definition place (cs : snode) (c n : xml) (l : list xml) : option (list xml) :=
  let others := filter (fun y => negb (same_entry cs c y)) l in
  match (if user_entries cs then get_attr insert_tag c else None) with
  | None => if existsb (same_entry cs c) l then Some (map (fun y => if same_entry cs c y then n else y) l)
            else Some (l ++ [n])
  | Some "first" => Some (n :: others)
  | Some "last" => Some (others ++ [n])
  | Some "before" => insert_before (named cs c) n others
  | Some "after" => insert_after (named cs c) n others
  | Some _ => None
  end.
Definition put (s cs : snode) (c n : xml) (l : list xml) : option (list xml) :=
  place cs c n (filter (fun y => negb (excludes s (xtag c) (xtag y))) l).

Definition leafy (cs : snode) : bool := match sty cs with TLeaf | TLeafList => true | _ => false end.
(** A container without presence that has no children does not exist. *)
Definition vanishes (cs : snode) (k : list xml) : bool :=
  match sty cs, k with
  | TContainer, [] => negb (s_presence (si cs))
  | _, _ => false
  end.

(** The children [l] of an instance of [s] after the edit [d] *)
Fixpoint serve (s : snode) (d : xml) (l : list xml) {struct d} : option (list xml) :=
  let '(Elem _ _ _ ks) := d in
  (fix go (ks : list xml) (l : list xml) {struct ks} : option (list xml) :=
     match ks with
     | [] => Some l
     | c :: r =>
         match lookup s (xtag c) with
         | None => None
         | Some cs =>
             let there := find (same_entry cs c) l in
             let others := filter (fun y => negb (same_entry cs c y)) l in
             match
               match edit_op c with
               | OpDelete => match there with Some _ => Some others | None => None end
               | OpRemove => Some others
               | OpCreate => match there with Some _ => None | None => put s cs c (plain c) l end
               | OpReplace => put s cs c (plain c) l
               | OpMerge =>
                   if leafy cs then put s cs c (plain c) l
                   else match serve cs c (match there with Some y => xkids y | None => new_kids cs c end) with
                        | None => None
                        | Some k => if vanishes cs k then Some others
                                    else put s cs c (Elem (xtag c) None [] k) l
                        end
               | OpUnknown => None
               end
             with
             | None => None
             | Some l' => go r l'
             end
         end
     end) ks l.

(** ** Configs and schemas *)

(** No two nodes of a config are in different cases of one choice. *)
Fixpoint one_case (s : snode) (x : xml) : bool :=
  let '(Elem _ _ _ ks) := x in
  forallb (fun c => forallb (fun c' => negb (excludes s (xtag c) (xtag c'))) ks) ks &&
  forallb (fun c => match lookup s (xtag c) with Some cs => one_case cs c | None => true end) ks.

(** A case stands directly below a choice. *)
Definition is_case (k : snode) : bool := match sty k with TCase => true | _ => false end.
Definition is_choice (k : snode) : bool := match sty k with TChoice => true | _ => false end.
Fixpoint cases_ok (s : snode) : bool :=
  let '(SNode i ks) := s in
  forallb (fun k => negb (is_case k) || is_choice s) ks && forallb cases_ok ks.
(** Choices consist of cases, and cases of data nodes. *)
Fixpoint flat_choices (s : snode) : bool :=
  let '(SNode i ks) := s in
  (negb (is_choice s) || forallb is_case ks) &&
  (negb (is_case s) || forallb (fun k => negb (is_choice k)) ks) &&
  forallb flat_choices ks.

(** The source has no node that one of the destination excludes. *)
Definition NoClash : snode -> xml -> xml -> Prop :=
  Everywhere (fun s' na nb => forall ca cb, In ca (xkids na) -> In cb (xkids nb) ->
    excludes s' (xtag cb) (xtag ca) = false).

(** The delta does not delete what the server has deleted before, or it says 'remove'. *)
Definition Switchable (o : opts) (s : snode) (a b : xml) : Prop :=
  o_delete o = PDRemove \/ (o_type o <> DReplace /\ flat_choices s = true) \/ NoClash s a b.
