(** The record of dependencies between YANG modules: [update_dependencies],
    /repo/src/ncdiff/model.py:616-684, [get_dependencies], model.py:984-1019, the modules that
    [compile] loads, model.py:1044-1048, and [namespaces], /repo/src/ncdiff/manager.py:116-130.
    No proofs in this file. *)
From Coq Require Import String Ascii List Bool Arith.
From Verif Require Import Base XmlM RunningM DepictM.
Import ListNotations.
Open Scope string_scope.
Open Scope list_scope.

(** A parsed pyang statement. Simplified: an argument that is None is the empty text; none of
    the statements read here can be without argument. *)
Inductive stm := Stm (kw : kword) (arg : string) (subs : list stm).
Definition s_kw (s : stm) := let '(Stm k _ _) := s in k.
Definition s_arg (s : stm) := let '(Stm _ a _) := s in a.
Definition s_subs (s : stm) := let '(Stm _ _ l) := s in l.
Definition kw_is (k : string) (s : stm) : bool := match s_kw s with Kw w => String.eqb w k | KwExt _ _ => false end.
(** [search] and [search_one] of pyang *)
Definition search (k : string) (s : stm) : list stm := filter (kw_is k) (s_subs s).
Definition search_one (k : string) (s : stm) : option stm := match search k s with x :: _ => Some x | [] => None end.

(** [a in b] for texts *)
Fixpoint contains (a b : string) : bool := starts a b || match b with String _ r => contains a r | EmptyString => false end.
(** model.py:672-676. The first item of a keyword that is a text is its first letter, which
    cannot contain ['tailf']. *)
Definition is_hidden (s : stm) : bool :=
  match s_kw s with KwExt m k => contains "tailf" m && String.eqb k "hidden" | Kw _ => false end.
(** model.py:660-682 *)
Definition exposes (s : stm) : bool :=
  existsb (fun k => existsb (fun x => negb (existsb is_hidden (s_subs x))) (search k s))
    ["container"; "leaf"; "leaf-list"; "list"; "choice"; "uses"].

(** One group of the loop of model.py:642-658, without the prefix of imports *)
Definition group (parent child attr : string) (s : stm) : list xml :=
  match search child s with
  | [] => []
  | l => [Elem parent None [] (map (fun x => Elem child None [(attr, s_arg x)] []) l)]
  end.
(** The imports, model.py:650-658: a missing prefix raises AttributeError and leaves the
    children made so far. *)
Fixpoint import_nodes (l : list stm) : list xml * bool :=
  match l with
  | [] => ([], true)
  | x :: r => match search_one "prefix" x with
              | None => ([Elem "import" None [("module", s_arg x)] []], false)
              | Some p => let '(ks, ok) := import_nodes r in
                          (Elem "import" None [("module", s_arg x); ("prefix", s_arg p)] [] :: ks, ok)
              end
  end.
Definition import_group (s : stm) : list xml * bool :=
  match search "import" s with
  | [] => ([], true)
  | l => let '(ks, ok) := import_nodes l in ([Elem "imports" None [] ks], ok)
  end.
Definition kw_text (s : stm) : string := match s_kw s with Kw k => k | KwExt m k => (m ++ ":" ++ k)%string end.
(** The module node, model.py:624-682, and whether it was finished *)
Definition module_node (s : stm) : xml * bool :=
  let m := kw_is "module" s in
  let prefix := if m then match search_one "prefix" s with Some p => [("prefix", s_arg p)] | None => [] end else [] in
  let ns := if m then match search_one "namespace" s with Some u => [Elem "namespace" (Some (s_arg u)) [] []] | None => [] end else [] in
  let belongs := if kw_is "submodule" s then match search_one "belongs-to" s with Some b => [Elem "belongs-to" None [("module", s_arg b)] []] | None => [] end else [] in
  let '(imports, ok) := import_group s in
  (Elem "module" None ([("id", s_arg s); ("type", kw_text s)] ++ prefix)
     (ns ++ belongs ++ group "includes" "include" "module" s ++ imports ++
      if ok then group "revisions" "revision" "date" s ++ group "augments" "augment" "xpath" s ++
                 group "deviations" "deviation" "xpath" s ++ (if exposes s then [Elem "roots" None [] []] else [])
      else []), ok).
(** The set of names returned, model.py:641, 653-654, 684 *)
Definition needed (s : stm) : list string := map s_arg (search "include" s) ++ map s_arg (search "import" s).
(** [update_dependencies], model.py:616-684; [deps] are the children of [self.dependencies]. *)
Definition has_id (n : string) (x : xml) : bool := eq_opt n (get_attr "id" x).
Definition update_dependencies (deps : list xml) (s : stm) : list xml * res (list string) :=
  let '(x, ok) := module_node s in
  (filter (fun y => negb (has_id (s_arg s) y)) deps ++ [x], if ok then Ok (needed s) else Err AttributeError).

(** [x.findall('./a/b')] *)
Definition find2 (a b : string) (x : xml) : list xml :=
  filter (fun c => String.eqb (xtag c) b) (flat_map xkids (filter (fun c => String.eqb (xtag c) a) (xkids x))).
(** [i.get(k)] for all of them, None left out *)
Definition gets (k : string) (l : list xml) : list string :=
  flat_map (fun x => match get_attr k x with Some v => [v] | None => [] end) l.
(** [get_dependencies], model.py:1003-1019; the two sets as lists. Simplified: every [import]
    has an attribute [module], so None is in no set. *)
Definition get_dependencies (deps : list xml) (m : string) : list string * list string :=
  (flat_map (fun x => gets "module" (find2 "imports" "import" x)) (filter (fun x => String.eqb (xtag x) "module" && has_id m x) deps),
   gets "id" (filter (fun x => mem String.eqb m (gets "module" (find2 "imports" "import" x)) || mem String.eqb m (gets "module" (find2 "includes" "include" x))) deps)).
(** [required_module_set], model.py:1044-1046 *)
Definition required (deps : list xml) (m : string) : list string :=
  let '(imports, depends) := get_dependencies deps m in imports ++ depends ++ [m].
(** [namespaces], manager.py:121-129 *)
Definition namespaces (deps : list xml) : list (option string * string * option string) :=
  flat_map (fun x => match get_attr "prefix" x with
                     | Some p => [(get_attr "id" x, p, match filter (fun c => String.eqb (xtag c) "namespace") (xkids x) with c :: _ => xtext c | [] => None end)]
                     | None => []
                     end) (filter (fun x => String.eqb (xtag x) "module") deps).

(** ** Threads *)

(** [update_dependencies] as run by several threads, model.py:494-545: what a thread does next.
    Simplified: the statements are those that do not raise (C53 is about the others); the node
    is filled at once after it has been appended, since no other thread reads it but for its id. *)
Inductive thread :=
| TIdle
| TCheck (s : stm)                 (* at [if self.dependencies is None] *)
| TNew (s : stm)                   (* at [self.dependencies = etree.Element('modules')] *)
| TScan (s : stm)                  (* at the list of old nodes, model.py:619-622 *)
| TRemove (s : stm) (l : list nat) (* at [self.dependencies.remove(m)] *)
| TAppend (s : stm)                (* at [etree.SubElement(self.dependencies, 'module')] *)
| TFill (s : stm) (root n : nat)   (* fills the node [n] of the tree [root] *)
| TDied.                           (* an exception *)
(** The trees made so far, each a list of nodes with their identity, and which of them is
    [self.dependencies]; [todo]: the files in the queue. *)
Definition tree := list (nat * option stm).
Record shared := Shared { trees : list tree; current : option nat; fresh : nat; todo : list stm }.
Definition get_tree (g : shared) (r : nat) : tree := nth r (trees g) [].
Fixpoint set_nth {A} (l : list A) (n : nat) (x : A) : list A :=
  match l, n with [], _ => [] | _ :: r, 0 => x :: r | y :: r, S m => y :: set_nth r m x end.
Definition set_tree (g : shared) (r : nat) (t : tree) : shared := Shared (set_nth (trees g) r t) (current g) (fresh g) (todo g).
Definition same_id (s : stm) (e : nat * option stm) : bool := match snd e with Some s' => String.eqb (s_arg s') (s_arg s) | None => false end.
Definition fill (n : nat) (s : stm) (t : tree) : tree := map (fun e => if Nat.eqb (fst e) n then (n, Some s) else e) t.

Definition tstep (g : shared) (w : thread) : option (shared * thread) :=
  match w with
  | TIdle => match todo g with [] => None | s :: r => Some (Shared (trees g) (current g) (fresh g) r, TCheck s) end
  | TCheck s => Some (g, match current g with None => TNew s | Some _ => TScan s end)
  | TNew s => Some (Shared (trees g ++ [[]]) (Some (List.length (trees g))) (fresh g) (todo g), TScan s)
  | TScan s => match current g with
               | None => Some (g, TDied)
               | Some r => Some (g, TRemove s (map fst (filter (same_id s) (get_tree g r))))
               end
  | TRemove s [] => Some (g, TAppend s)
  | TRemove s (n :: l) => match current g with
                          | None => Some (g, TDied)
                          | Some r => if existsb (fun e => Nat.eqb (fst e) n) (get_tree g r)
                                      then Some (set_tree g r (filter (fun e => negb (Nat.eqb (fst e) n)) (get_tree g r)), TRemove s l)
                                      else Some (g, TDied)
                          end
  | TAppend s => match current g with
                 | None => Some (g, TDied)
                 | Some r => Some (let g' := set_tree g r (get_tree g r ++ [(fresh g, None)]) in
                                   Shared (trees g') (current g') (S (fresh g)) (todo g'), TFill s r (fresh g))
                 end
  | TFill s r n => Some (set_tree g r (fill n s (get_tree g r)), TIdle)
  | TDied => None
  end.
(** Any thread makes the next step. *)
Inductive step : shared * list thread -> shared * list thread -> Prop :=
| one_step : forall g g' a w w' b, tstep g w = Some (g', w') -> step (g, a ++ w :: b) (g', a ++ w' :: b).
Inductive steps : shared * list thread -> shared * list thread -> Prop :=
| steps_none : forall c, steps c c
| steps_more : forall c c' c'', step c c' -> steps c' c'' -> steps c c''.
(** The start of [download_all], model.py:826-836: an empty tree. *)
Definition begin (all : list stm) : shared := Shared [[]] (Some 0) 0 all.
(** The start of [load_context], model.py:700-712: no tree yet. *)
Definition begin_none (all : list stm) : shared := Shared [] None 0 all.
(** The children of [self.dependencies] *)
Definition node_of (e : nat * option stm) : xml := match snd e with Some s => fst (module_node s) | None => Elem "module" None [] [] end.
Definition deps_of (g : shared) : list xml := match current g with Some r => map node_of (get_tree g r) | None => [] end.
