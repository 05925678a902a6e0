(** Specification: dependencies between YANG modules. *)
From Coq Require Import String Ascii List Bool Arith Permutation.
From Verif Require Import Base XmlM DepictM DepsM.
Import ListNotations.
Open Scope string_scope.
Open Scope list_scope.

(** A module names another one in a substatement. *)
Definition Names (k : string) (s : stm) (n : string) : Prop := exists x, In x (s_subs s) /\ s_kw x = Kw k /\ s_arg x = n.
Definition Imports := Names "import".
Definition Includes := Names "include".
(** The first substatement with a keyword, RFC 7950: the only one *)
Definition First (k : string) (s : stm) (v : string) : Prop :=
  exists l x r, s_subs s = l ++ x :: r /\ (forall y, In y l -> s_kw y <> Kw k) /\ s_kw x = Kw k /\ s_arg x = v.
Definition Lacks (k : string) (s : stm) : Prop := forall y, In y (s_subs s) -> s_kw y <> Kw k.
(** Every import has a prefix, as RFC 7950 section 7.1.5 demands. *)
Definition Complete (s : stm) : Prop := forall x, In x (s_subs s) -> s_kw x = Kw "import" -> exists p, First "prefix" x p.
(** The last statement with its name *)
Definition Latest (ss : list stm) (s : stm) : Prop :=
  exists l r, ss = l ++ s :: r /\ forall s', In s' r -> s_arg s' <> s_arg s.
(** A statement for data that the extension tailf:hidden does not hide *)
Definition Visible (s : stm) : Prop :=
  exists x k, In x (s_subs s) /\ s_kw x = Kw k /\ In k ["container"; "leaf"; "leaf-list"; "list"; "choice"; "uses"] /\
  forall y, In y (s_subs x) -> forall a b, s_kw y <> KwExt (a ++ "tailf" ++ b)%string "hidden".

(** A run of updates, from nothing *)
Inductive Recorded : list stm -> list xml -> Prop :=
| rc_nil : Recorded [] []
| rc_more : forall ss s deps, Recorded ss deps -> Recorded (ss ++ [s]) (fst (update_dependencies deps s)).

(** All files are read and the threads are at the end. *)
Definition Finished (g : shared) (ws : list thread) : Prop := todo g = [] /\ forall w, In w ws -> w = TIdle.
(** So many steps lead from one state to the other. *)
Inductive Run : nat -> shared * list thread -> shared * list thread -> Prop :=
| run_none : forall c, Run 0 c c
| run_more : forall k c c' c'', step c c' -> Run k c' c'' -> Run (S k) c c''.
