(** Specification: what the record of a module says of it, for C74. *)
From Coq Require Import String Ascii List Bool Arith.
From Verif Require Import Base XmlM DepictM DepsM DepsSpec.
Import ListNotations.
Open Scope string_scope.
Open Scope list_scope.

(** The arguments of the statements with the keyword [k], in their order *)
Inductive Args (k : string) : list stm -> list string -> Prop :=
| ar_nil : Args k [] []
| ar_take : forall x r l, s_kw x = Kw k -> Args k r l -> Args k (x :: r) (s_arg x :: l)
| ar_skip : forall x r l, s_kw x <> Kw k -> Args k r l -> Args k (x :: r) l.
(** The imported modules with their prefixes *)
Inductive ImportArgs : list stm -> list (string * string) -> Prop :=
| im_nil : ImportArgs [] []
| im_take : forall x p r l, s_kw x = Kw "import" -> First "prefix" x p -> ImportArgs r l -> ImportArgs (x :: r) ((s_arg x, p) :: l)
| im_skip : forall x r l, s_kw x <> Kw "import" -> ImportArgs r l -> ImportArgs (x :: r) l.

(** The children of the record *)
Inductive Part (s : stm) : xml -> Prop :=
| p_ns : forall u, s_kw s = Kw "module" -> First "namespace" s u -> Part s (Elem "namespace" (Some u) [] [])
| p_belongs : forall b, s_kw s = Kw "submodule" -> First "belongs-to" s b -> Part s (Elem "belongs-to" None [("module", b)] [])
| p_group : forall g k a l, In (g, k, a) [("includes", "include", "module"); ("revisions", "revision", "date");
      ("augments", "augment", "xpath"); ("deviations", "deviation", "xpath")] ->
    Args k (s_subs s) l -> l <> [] -> Part s (Elem g None [] (map (fun v => Elem k None [(a, v)] []) l))
| p_imports : forall l, ImportArgs (s_subs s) l -> l <> [] ->
    Part s (Elem "imports" None [] (map (fun '(m, p) => Elem "import" None [("module", m); ("prefix", p)] []) l))
| p_roots : Visible s -> Part s (Elem "roots" None [] []).

Inductive Record_of (s : stm) : xml -> Prop :=
| record_of : forall attrs kids k,
    s_kw s = Kw k ->
    (forall n v, In (n, v) attrs <-> n = "id" /\ v = s_arg s \/ n = "type" /\ v = k \/ n = "prefix" /\ k = "module" /\ First "prefix" s v) ->
    NoDup (map fst attrs) -> NoDup (map xtag kids) -> (forall c, In c kids <-> Part s c) ->
    Record_of s (Elem "module" None attrs kids).
