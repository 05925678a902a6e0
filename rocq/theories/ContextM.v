(** The modules of a [CompilerContext]: [validate_context], [sort_modules] and
    [internal_reset], /repo/src/ncdiff/model.py:714-744, and the page of [ModelDiff.compare],
    model.py:1411-1458. No proofs in this file. *)
From Coq Require Import String Ascii List Bool.
From Verif Require Import Base XmlM CompileM.
Import ListNotations.
Open Scope string_scope.
Open Scope list_scope.

(** [self.modules]: by name and revision; a statement is known by its keyword and an
    identity. A dict keeps the order of insertion. *)
Definition modid := (string * string)%type.
Definition modid_eqb (a b : modid) : bool := andb (String.eqb (fst a) (fst b)) (String.eqb (snd a) (snd b)).
Record module := Mod { mo_keyword : string; mo_id : nat }.
Definition modules := list (modid * module).

(** [sort_modules], model.py:728-733: submodules are deleted and put back. *)
Definition is_sub (m : module) : bool := String.eqb (mo_keyword m) "submodule".
Definition ddel (k : modid) (d : modules) : modules := filter (fun e => negb (modid_eqb (fst e) k)) d.
Definition sort_modules (d : modules) : modules :=
  let subs := filter (fun e => is_sub (snd e)) d in
  let rest := fold_left (fun d k => ddel k d) (map fst subs) d in
  fold_left (fun d e => dset modid_eqb (fst e) (snd e) d) subs rest.

(** The table [revisions] of [validate_context], model.py:715-721 *)
Definition revisions (keys : list modid) : list (string * string) :=
  fold_left (fun d '(n, r) =>
    match assoc String.eqb n d with
    | None => dset String.eqb n r d
    | Some r0 => if str_gt r r0 then dset String.eqb n r d else d
    end) keys [].

(** [validate_context], model.py:714-726: the modules given to [validate] in their order, and
    those pruned afterwards; [prunes] says if pyang has [prune]. Simplified: [validate] neither
    adds nor removes modules here. A KeyError is possible only if it removes some. *)
Definition validate_context (prunes : bool) (d : modules) : modules * res (list module) :=
  let revs := revisions (map fst d) in
  let d' := sort_modules d in
  (d', if prunes then mapM (fun k => match assoc modid_eqb k d' with Some m => Ok m | None => Err KeyError end) revs else Ok []).

(** [internal_reset], model.py:735-744: [files] is what the repository lists. *)
Definition reset_revs {H : Type} (files : list (string * string * H)) : list (string * list (string * H)) :=
  fold_left (fun d '(m, r, h) =>
    let d1 := match assoc String.eqb m d with None => dset String.eqb m [] d | Some _ => d end in
    match assoc String.eqb m d1 with
    | Some l => dset String.eqb m (l ++ [(r, h)]) d1
    | None => d1
    end) files [].

(** [compare] of [ModelDiff], model.py:1430-1458. The two lists of nodes come from lxml. *)
Definition nl : string := String (ascii_of_nat 10) "".
Fixpoint dashes (n : nat) : string := match n with O => "" | S k => String "-" (dashes k) end.
Definition print_value (v : option string) : string :=
  match v with None => "None" | Some s => ("'" ++ s ++ "'")%string end.
Definition print_node (l : list xml) : string :=
  match l with
  | [] => "None"
  | x :: _ =>
      String.concat nl
        ([("tag: '" ++ xtag x ++ "'")%string; ("text: " ++ print_value (xtext x))%string; "attributes:"] ++
         map (fun kv => ("  " ++ fst kv ++ " = " ++ print_value (Some (snd kv)))%string) (xattrs x))
  end.
Definition compare_page (xpath : string) (l1 l2 : list xml) : string :=
  String.concat nl
    [ (dashes 21 ++ " XPATH " ++ dashes 21)%string; ("'" ++ xpath ++ "'")%string;
      (dashes 20 ++ " MODEL 1 " ++ dashes 20)%string; print_node l1;
      (dashes 20 ++ " MODEL 2 " ++ dashes 20)%string; print_node l2; dashes 49; "" ].
