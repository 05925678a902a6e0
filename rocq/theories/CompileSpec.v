(** What is claimed of the compiler helpers. *)
From Coq Require Import String Ascii List Bool Arith Lia.
From Verif Require Import Base CompileM.
Import ListNotations.
Open Scope string_scope.
Open Scope list_scope.
Open Scope nat_scope.

(** ** Dates *)

Record date := Date { yr : nat; mo : nat; dy : nat }.
Definition Valid (d : date) : Prop := yr d < 100 * 100 /\ mo d < 100 /\ dy d < 100.
Definition digit (n : nat) : ascii := ascii_of_nat (48 + n mod 10).
Definition two (n : nat) (s : string) : string := String (digit (n / 10)) (String (digit n) s).
Definition four (n : nat) (s : string) : string :=
  String (digit (n / 1000)) (String (digit (n / 100)) (String (digit (n / 10)) (String (digit n) s))).
(** YYYY-MM-DD *)
Definition written (d : date) : string := four (yr d) (String "-" (two (mo d) (String "-" (two (dy d) "")))).
Definition Later (a b : date) : Prop :=
  yr a > yr b \/ yr a = yr b /\ (mo a > mo b \/ mo a = mo b /\ dy a > dy b).

(** ** Characters *)

Fixpoint Without (c : ascii) (s : string) : Prop :=
  match s with EmptyString => True | String d r => d <> c /\ Without c r end.

(** ** Identities *)

(** [b], written in module [m], is identity [n] of module [mn]: RFC 7950 section 7.18.2. *)
Inductive Means (m : mstmt) : string -> string -> string -> Prop :=
| Means_prefixed : forall p mn n, Without ":" p -> Without ":" n ->
    assoc String.eqb p (ms_prefixes m) = Some mn -> Means m (p ++ ":" ++ n)%string mn n
| Means_own : forall n, Without ":" n -> Means m n (ms_name m) n.

(** All identities of the loaded modules, in the order the compiler sees them. *)
Definition all_ids (ms : list mstmt) : list (mstmt * identity) :=
  flat_map (fun m => if ms_module m then map (pair m) (ms_ids m) else []) ms.

(** [i] of [m] is derived directly from identity [n] of module [mn]. *)
Definition Derived (m : mstmt) (i : identity) (mn n : string) : Prop :=
  exists b, In b (id_bases i) /\ Means m b mn n.

(** The same by its first base, which is not written without a prefix outside the
    compiled module. *)
Definition DerivedFirst (module : string) (m : mstmt) (i : identity) (mn n : string) : Prop :=
  exists b r, id_bases i = b :: r /\ Means m b mn n /\ (Without ":" b -> ms_name m = module).

(** Every first base means some identity, and is not written without a prefix outside the
    compiled module. *)
Definition Clean (module : string) (ms : list mstmt) : Prop :=
  forall m i b r, In (m, i) (all_ids ms) -> id_bases i = b :: r ->
    exists mn n, Means m b mn n /\ (Without ":" b -> ms_name m = module).

Definition IsId (m : mstmt) (i : identity) (mn n : string) : Prop := ms_name m = mn /\ id_name i = n.

(** Names have no colon, and no two modules have the same name. *)
Definition Named (ms : list mstmt) : Prop :=
  NoDup (map ms_name ms) /\
  (forall m, In m ms -> Without ":" (ms_name m)) /\
  (forall m p mn, In m ms -> In (p, mn) (ms_prefixes m) -> Without ":" mn) /\
  (forall m i, In (m, i) (all_ids ms) -> Without ":" (id_name i)).

(** ** Paths *)

Inductive pstep := Up | Plain (n : string) | Qual (p n : string).
Record path := Path { absolute : bool; psteps : list pstep }.

Definition show_step (s : pstep) : string :=
  match s with Up => ".." | Plain n => n | Qual p n => (p ++ ":" ++ n)%string end.
Definition show (p : path) : string :=
  String.concat "/" ((if absolute p then [""] else []) ++ map show_step (psteps p)).

(** Names without slash and colon, not empty and not two dots. *)
Definition SimpleName (n : string) : Prop := Without "/" n /\ Without ":" n /\ n <> "" /\ n <> "..".
Definition SimpleStep (s : pstep) : Prop :=
  match s with Up => True | Plain n => SimpleName n | Qual p n => SimpleName p /\ SimpleName n end.

(** What is visited: up, or down to a name of a module. In a YANG leafref path a name
    without prefix belongs to the module of the leaf (RFC 7950 section 6.4.1). *)
Inductive visit := VUp | VDown (prefix name : string).
Definition yang_meaning (local : string) (s : pstep) : visit :=
  match s with Up => VUp | Plain n => VDown local n | Qual p n => VDown p n end.
(** In the compact notation it belongs to the module of the last prefix before it. *)
Fixpoint compact_meaning (cur : string) (l : list pstep) : list visit :=
  match l with
  | [] => []
  | Up :: r => VUp :: compact_meaning cur r
  | Plain n :: r => VDown cur n :: compact_meaning cur r
  | Qual p n :: r => VDown p n :: compact_meaning p r
  end.

(** No name without prefix follows a prefix other than the local one. *)
Fixpoint Steady (local cur : string) (l : list pstep) : Prop :=
  match l with
  | [] => True
  | Up :: r => Steady local cur r
  | Plain _ :: r => cur = local /\ Steady local cur r
  | Qual p _ :: r => Steady local p r
  end.

(** No prefix is repeated. *)
Fixpoint Tight (cur : string) (l : list pstep) : Prop :=
  match l with
  | [] => True
  | Qual p _ :: r => p <> cur /\ Tight p r
  | _ :: r => Tight cur r
  end.

(** ** Copies *)

(** [y] has the tag, text, attributes and children of [x], and every prefix in scope at
    [x] has the same meaning at [y]. *)
Inductive Copied : list (option string * string) -> list (option string * string) -> nnode -> nnode -> Prop :=
| Copied_elem : forall outer out t tx a d d' k k',
    (forall p u, assoc ostr_eqb p (scope outer d) = Some u -> assoc ostr_eqb p (scope out d') = Some u) ->
    Forall2 (Copied (scope outer d) (scope out d')) k k' ->
    Copied outer out (NElem t tx a d k) (NElem t tx a d' k').

Inductive NoComment : nnode -> Prop :=
| NoComment_elem : forall t tx a d k, Forall NoComment k -> NoComment (NElem t tx a d k).
