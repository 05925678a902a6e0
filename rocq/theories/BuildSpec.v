(** Specification: a compiled model depends on the YANG files only. *)
From Coq Require Import String List Bool.
From Verif Require Import Base XmlM CompileM DepictM TypeM DepsM BuildM.
Import ListNotations.
Open Scope string_scope.
Open Scope list_scope.

(** A set in some order *)
Definition Lists (order l : list string) : Prop := NoDup order /\ forall x, In x order <-> In x l.
(** Two records of dependencies that ask for the same modules *)
Definition SameNeeds (d d' : list xml) : Prop := forall m x, In x (required d m) <-> In x (required d' m).

(** A statement, or one below it, refers to a module. *)
Inductive Refers : rstmt -> string -> Prop :=
| rf_own : forall i local t ks, Refers (RStmt i local t ks) (y_module i)
| rf_ext : forall i local t ks m w a, In (KwExt m w, a) (y_ext i) -> Refers (RStmt i local t ks) m
| rf_kid : forall i local t ks c m, In c ks -> Refers c m -> Refers (RStmt i local t ks) m.
(** A type that takes values from identities *)
Inductive UsesIdentities : ytype -> Prop :=
| ui_own : forall d td en b p ms m, UsesIdentities (YType "identityref" d td en b p ms m)
| ui_typedef : forall a d t en b p ms m, UsesIdentities t -> UsesIdentities (YType a d (Some (Some t)) en b p ms m)
| ui_member : forall a d td en b p ms m t, In t ms -> UsesIdentities t -> UsesIdentities (YType a d td en b p ms m).
Inductive HasIdentity : rstmt -> Prop :=
| hi_own : forall i local t ks, UsesIdentities t -> HasIdentity (RStmt i local (Some t) ks)
| hi_kid : forall i local t ks c, In c ks -> HasIdentity c -> HasIdentity (RStmt i local t ks).

(** A context in which every module referred to is loaded and has a namespace *)
Definition Closed (mods : list cmod) : Prop :=
  forall c x n, In c mods -> In x (cm_kids c) -> Refers x n ->
  exists c' u, In c' mods /\ ms_module (cm_m c') = true /\ ms_name (cm_m c') = n /\ cm_ns c' = Some u.
Definition WithoutIdentities (mods : list cmod) : Prop := forall c x, In c mods -> In x (cm_kids c) -> ~ HasIdentity x.

(** The life of a folder without changes by hand: the state of the compiler and the folder *)
Inductive Life (pyang : list (string * string) -> list string -> res (list cmod)) (load : list (string * string) -> list xml) : comp * folder -> Prop :=
| li_new : forall y, Life pyang load (start load (Folder y []))
| li_compile : forall st order m, Life pyang load st -> m <> deps_name -> Lists order (required (k_deps (fst st)) m) ->
    Life pyang load (happen pyang load (ECompile order m) st)
| li_start : forall st, Life pyang load st -> Life pyang load (happen pyang load EStart st)
| li_download : forall st y d, Life pyang load st -> SameNeeds d (load y) -> Life pyang load (happen pyang load (EDownload y d) st)
| li_killed : forall st m, Life pyang load st -> Life pyang load (happen pyang load (EKilled m) st).

(** The first call of a new compiler on a folder with nothing but the YANG files *)
Definition first_compile pyang load (y : list (string * string)) (order : list string) (m : string) : res xml :=
  fst (compile pyang order m (start load (Folder y []))).
Definition Possible pyang load (y : list (string * string)) (m : string) (r : res xml) : Prop :=
  exists order, Lists order (required (load y) m) /\ first_compile pyang load y order m = r.

(** The life of a folder in which every call of compile is by a compiler of its own *)
Inductive Alone (pyang : list (string * string) -> list string -> res (list cmod)) (load : list (string * string) -> list xml) : folder -> Prop :=
| al_new : forall y, Alone pyang load (Folder y [])
| al_compile : forall f order m, Alone pyang load f -> m <> deps_name -> Lists order (required (k_deps (fst (start load f))) m) ->
    Alone pyang load (snd (snd (compile pyang order m (start load f))))
| al_download : forall f y d, Alone pyang load f -> SameNeeds d (load y) ->
    Alone pyang load (Folder y [(deps_name, Some (Elem "modules" None [] d))])
| al_killed : forall f m, Alone pyang load f -> Alone pyang load (Folder (d_yang f) (dset String.eqb m None (d_xml f))).
