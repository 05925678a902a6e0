(** [ModelCompiler.compile] over the life of a folder of YANG files: the files that it keeps,
    the record of dependencies and what one compiler remembers between two calls,
    /repo/src/ncdiff/model.py:32-51, 686-712, 934-982, 1021-1129, 1233-1326; [scan_models],
    /repo/src/ncdiff/manager.py:271-274. No proofs in this file. *)
From Coq Require Import String Ascii List Bool.
From Verif Require Import Base XmlM CompileM DepictM TypeM DepsM.
Import ListNotations.
Open Scope string_scope.
Open Scope list_scope.

(** A validated statement with its type and the prefix of its module (for leafrefs). The
    field [y_type] of the record is not used. *)
Inductive rstmt := RStmt (i : yinfo) (local : string) (t : option ytype) (kids : list rstmt).
(** A module or submodule in the context of pyang: its names, prefixes and identities, its
    namespace and prefix statements, and [i_children] *)
Record cmod := CMod { cm_m : mstmt; cm_ns : option string; cm_prefix : option string; cm_kids : list rstmt }.

(** [set_leaf_datatype_value] for all leaves. Simplified: it is done before the nodes are made,
    so that of two errors the other one may be raised. *)
Definition with_type (t : option (string * string * option string)) (i : yinfo) : yinfo :=
  YInfo (y_kw i) (y_arg i) (y_module i) (y_config i) (y_status i) (y_defaults i) (y_key i) (y_ordered i) (y_presence i)
        (y_mandatory i) (y_cases i) (y_is_key i) t (y_ext i) (y_features i) (y_augment i).
Fixpoint resolve (ids : iddeps) (pre : list (string * string)) (x : rstmt) : res ystmt :=
  let '(RStmt i local t ks) := x in
  let! ty := leaf_type ids pre local t in
  let! l := (fix go (l : list rstmt) : res (list ystmt) :=
               match l with
               | [] => Ok []
               | c :: r => let! y := resolve ids pre c in let! ys := go r in Ok (y :: ys)
               end) ks in
  Ok (YStmt (with_type ty i) l).

(** What a compiler remembers: [context.dependencies] (its children), [module_namespaces],
    [module_prefixes], [identity_deps], model.py:934-945 *)
Record comp := Comp { k_deps : list xml; k_ns : list (string * string); k_pre : list (string * string); k_ids : iddeps }.
(** The folder: YANG files by module name with their text; files with the extension xml by
    name, None if the content is no XML. *)
Record folder := Folder { d_yang : list (string * string); d_xml : list (string * option xml) }.
Definition deps_name := "dependencies".

(** The loop over the modules of the context, model.py:1083-1115 *)
Definition note (module : string) (mods : list cmod) (k : comp) : comp :=
  Comp (k_deps k)
    (fold_left (fun d c => if ms_module (cm_m c) then match cm_ns c with Some u => dset String.eqb (ms_name (cm_m c)) u d | None => d end else d) mods (k_ns k))
    (module_prefixes (map cm_m mods) (k_pre k))
    (identity_deps module (map cm_m mods) (k_ids k)).
Definition ns_nodes (mods : list cmod) : list xml :=
  flat_map (fun c => if ms_module (cm_m c) then [Elem "namespace" (cm_ns c) [("prefix", ms_prefix (cm_m c))] []] else []) mods.

Section Oracles.
  (** pyang: the context after the modules have been added, in this order, and validated; it
      may read any file of the folder. *)
  Variable pyang : list (string * string) -> list string -> res (list cmod).
  (** The record that [load_context] makes of the files (DepsM.v) *)
  Variable load : list (string * string) -> list xml.

  (** [compile], model.py:1021-1129. [order] is [required_module_set] in the order in which
      Python lists it. [get_module] is the first module of that name (one revision of each).
      Simplified: the Model object made from the tree is left out (DepictM.v, PrintM.v). *)
  Definition compile (order : list string) (module : string) (st : comp * folder) : res xml * (comp * folder) :=
    let '(k, f) := st in
    match assoc String.eqb module (d_xml f) with
    | Some (Some t) => (Ok t, st)
    | _ =>
        match pyang (d_yang f) (filter (fun m => mem String.eqb m (map fst (d_yang f))) order) with
        | Err e => (Err e, st)
        | Ok mods =>
            match find (fun c => String.eqb (ms_name (cm_m c)) module) mods with
            | None => (Err AttributeError, st)
            | Some vm =>
                match cm_prefix vm with
                | None => (Err ValueError, st)
                | Some p =>
                    let k' := note module mods k in
                    match (let! ss := mapM (resolve (k_ids k') (k_pre k')) (cm_kids vm) in compile_nodes (k_ns k') ss) with
                    | Err e => (Err e, (k', f))
                    | Ok nodes =>
                        let t := Elem module None [("type", if ms_module (cm_m vm) then "module" else "submodule"); ("prefix", p)] (ns_nodes mods ++ nodes) in
                        (Ok t, (k', Folder (d_yang f) (dset String.eqb module (Some t) (d_xml f))))
                    end
                end
            end
        end
    end.

  (** A new compiler, model.py:934-945 with [build_dependencies], 963-982: the record is read
      from the folder or made anew and written. *)
  Definition start (f : folder) : comp * folder :=
    match assoc String.eqb deps_name (d_xml f) with
    | Some (Some t) => (Comp (xkids t) [] [] [], f)
    | _ => let l := load (d_yang f) in
           (Comp l [] [] [], Folder (d_yang f) (dset String.eqb deps_name (Some (Elem "modules" None [] l)) (d_xml f)))
    end.

  (** What happens to a folder: a call of [compile]; a new compiler, in the same process or
      another one; a download, which empties the folder (FolderM.v), writes files and the
      record [d], and is followed by a new compiler; a process killed while it writes the XML
      file of [m], and its successor; a YANG file changed by hand. *)
  Inductive event :=
  | ECompile (order : list string) (m : string)
  | EStart
  | EDownload (y : list (string * string)) (d : list xml)
  | EKilled (m : string)
  | EEdit (m text : string).
  Definition happen (e : event) (st : comp * folder) : comp * folder :=
    match e with
    | ECompile order m => snd (compile order m st)
    | EStart => start (snd st)
    | EDownload y d => start (Folder y [(deps_name, Some (Elem "modules" None [] d))])
    | EKilled m => start (Folder (d_yang (snd st)) (dset String.eqb m None (d_xml (snd st))))
    | EEdit m text => (fst st, Folder (dset String.eqb m text (d_yang (snd st))) (d_xml (snd st)))
    end.
  Definition history (y : list (string * string)) (l : list event) : comp * folder := fold_left (fun st e => happen e st) l (start (Folder y [])).
End Oracles.
