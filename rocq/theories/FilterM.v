(** Model of [Config.filter] and of [extract_config]. *)
From Coq Require Import String Ascii List Bool Arith ZArith Lia.
From Verif Require Import Base XmlM CalcM NetconfM ConfigM.
Import ListNotations.
Open Scope string_scope.
Open Scope list_scope.

(** A node of a tree is identified by its position: child indices from the root.
    The code uses the identity of lxml elements. *)
Definition pos := list nat.
Definition pos_eqb : pos -> pos -> bool := list_eqb Nat.eqb.
Fixpoint above (p q : pos) : bool :=
  match p, q with
  | [], _ :: _ => true
  | i :: p', j :: q' => Nat.eqb i j && above p' q'
  | _, _ => false
  end.

(** [node in filtrates] and [node in ancestors], /repo/src/ncdiff/config.py:314-323:
    the selected nodes and the nodes above a selected one. *)
Definition selected (sel : list pos) (p : pos) : bool := existsb (pos_eqb p) sel.
Definition ancestor (sel : list pos) (p : pos) : bool := existsb (above p) sel.

(** [_node_filter], config.py:516-569. The last branch is only reached for the root,
    which has no parent. *)
Fixpoint node_filter (sel : list pos) (s : snode) (p : pos) (x : xml) : res xml :=
  let '(Elem t tx a ks) := x in
  if selected sel p then Ok x
  else if ancestor sel p then
    let! ks' :=
      (fix go (i : nat) (l : list xml) : res (list xml) :=
         match l with
         | [] => Ok []
         | c :: r =>
             let q := p ++ [i] in
             let! key := (if stype_eqb (sty s) TList
                          then let! cs := schema_child s (xtag c) in Ok (s_is_key (si cs))
                          else Ok false) in
             let! here :=
               (if key || selected sel q then Ok [c]
                else if ancestor sel q
                     then let! cs := schema_child s (xtag c) in
                          let! c' := node_filter sel cs q c in Ok [c']
                     else Ok []) in
             let! r' := go (S i) r in
             Ok (here ++ r')
         end) 0 ks in
    Ok (Elem t tx a ks')
  else Err AttributeError.

(** The result of evaluating an XPath expression: a boolean, number or string, or a
    list whose members are nodes or strings ([None]). *)
Inductive xpath_result := XScalar | XNodes (l : list (option pos)).

Definition elements (l : list (option pos)) : list pos :=
  flat_map (fun o => match o with Some p => [p] | None => [] end) l.

(** [Config.filter], config.py:316-349. [xpath] is the evaluation of the expression
    on the copied and validated tree. *)
Definition config_filter (s : snode) (xpath : xml -> xpath_result) (x : xml) : res xml :=
  let! c := config_new true false s x in
  match xpath c with
  | XScalar => Ok c
  | XNodes l => match elements l with
                | [] => Ok empty_config
                | _ => node_filter (elements l) s [] c
                end
  end.

(** [remove_read_only], /repo/src/ncdiff/manager.py:517-523. The guard
    [len(child) > 0] is left out: there is nothing to do below a node without
    children. *)
Fixpoint remove_read_only (s : snode) (x : xml) : res xml :=
  let '(Elem t tx a ks) := x in
  let! ks' :=
    (fix go (l : list xml) : res (list xml) :=
       match l with
       | [] => Ok []
       | c :: r =>
           let! cs := schema_child s (xtag c) in
           if String.eqb (s_access (si cs)) "read-only" then go r
           else let! c' := remove_read_only cs c in
                let! r' := go r in Ok (c' :: r')
       end) ks in
  Ok (Elem t tx a ks').

(** [ModelDevice.extract_config], manager.py:480-528 *)
Definition extract_config (rd : bool) (s : snode) (reply : xml) : res xml :=
  let! c := config_new true rd s reply in remove_read_only s c.
