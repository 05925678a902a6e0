(** What [ModelDevice.execute], /repo/src/ncdiff/manager.py:338-441, hands to ncclient, and the
    edit-config request, /repo/src/ncdiff/__init__.py:122-155. No proofs in this file. *)
From Coq Require Import String Ascii List Bool Arith.
From Verif Require Import Base XmlM TagM MDiffM CompatM.
Import ListNotations.
Open Scope string_scope.
Open Scope list_scope.

(** An argument of a call. [ACfg] is a Config with its [ele], [AFilter] the filter element
    with its children. *)
Inductive arg :=
| ANone | AStr (s : string) | AList (l : list string) | AEle (x : xml) | ACfg (x : xml) | AFilter (roots : list string).
(** The keyword arguments, a dict *)
Definition kwargs := list (string * arg).
Definition kw_get (k : string) (kw : kwargs) : option arg := assoc String.eqb k kw.
Definition kw_in (k : string) (kw : kwargs) : bool := match kw_get k kw with Some _ => true | None => false end.
Definition kw_del (k : string) (kw : kwargs) : kwargs := filter (fun p => negb (String.eqb (fst p) k)) kw.

(** The classes that [execute] treats in a special way, manager.py:399, 411, 424 *)
Inductive oper := Get | GetConfig | EditConfig | OtherOp (n : nat).
(** manager.py:389-398; [ops] is the table OPERATIONS of ncclient. *)
Definition find_oper (ops : list (string * oper)) (o : string + oper) : res oper :=
  match o with
  | inl s => match assoc String.eqb s ops with Some c => Ok c | None => Err ValueError end
  | inr c => Ok c
  end.

(** [pop_models], manager.py:349-357. Simplified: the argument is None, a string or a sequence of
    strings; TypeError stands for what happens to anything else. *)
Definition pop_models (kw : kwargs) : res (option (list string) * kwargs) :=
  match kw_get "models" kw with
  | None | Some ANone => Ok (None, kw_del "models" kw)
  | Some (AStr s) => Ok (Some [s], kw_del "models" kw)
  | Some (AList l) => Ok (Some l, kw_del "models" kw)
  | Some _ => Err TypeError
  end.

(** [check_models], manager.py:359-365 *)
Definition check_loaded (d : vdev) (l : list string) : res unit :=
  if forallb (fun m => mem String.eqb m (v_loaded d)) l then Ok tt else Err ModelMissing.
(** [get_access_type], manager.py:383-386 *)
Definition access_type (d : vdev) (n r : string) : res (option string) :=
  let! _ := check_loaded d [n] in
  let! t := model_of d n in
  match filter (fun c => String.eqb (xtag c) r) (xkids t) with
  | c :: _ => Ok (get_attr "access" c)
  | [] => Err IndexError
  end.
(** [[k for k, v in self.roots.items() if v in models and ...]], manager.py:403-406 and 417-419;
    [accs] are the access types wanted. *)
Definition pick_roots (d : vdev) (models accs : list string) : res (list string) :=
  foldM (fun acc '(r, n) =>
    if mem String.eqb n models then
      let! a := access_type d n r in
      match a with
      | Some v => if mem String.eqb v accs then Ok (acc ++ [r]) else Ok acc
      | None => Ok acc
      end
    else Ok acc) [] (v_roots d).
(** [build_filter], manager.py:367-381 *)
Definition build_filter (d : vdev) (models roots : list string) : res arg :=
  let! _ := check_loaded d models in Ok (AFilter roots).
(** manager.py:400-410 and 414-423 *)
Definition models_filter (d : vdev) (accs : list string) (kw : kwargs) : res kwargs :=
  let! p := pop_models kw in
  match p with
  | (None, kw') => Ok kw'
  | (Some models, kw') =>
      let! _ := check_loaded d models in
      let! roots := pick_roots d models accs in
      match roots with
      | [] => Err ValueError
      | _ => let! f := build_filter d models roots in Ok (dset String.eqb "filter" f kw')
      end
  end.

Definition cap_candidate := "urn:ietf:params:netconf:capability:candidate:1.0".
Definition cap_running := "urn:ietf:params:netconf:capability:writable-running:1.0".
(** [execute] up to the call of ncclient, manager.py:389-434: the class, the positional and the
    keyword arguments of that call. [caps] are the capabilities of the server. *)
Definition execute (ops : list (string * oper)) (caps : list string) (d : vdev) (o : string + oper)
    (args : list arg) (kw : kwargs) : res (oper * list arg * kwargs) :=
  let! cls := find_oper ops o in
  match cls with
  | Get => let! kw' := models_filter d ["read-write"; "read-only"] kw in Ok (cls, args, kw')
  | GetConfig =>
      let args' := match args with [] => if kw_in "source" kw then args else [AStr "running"] | _ => args end in
      let! kw' := models_filter d ["read-write"] kw in Ok (cls, args', kw')
  | EditConfig =>
      let args' := match args with ACfg x :: r => AEle x :: r | _ => args end in
      let kw' := if negb (kw_in "target" kw) && negb (mem String.eqb cap_candidate caps) && mem String.eqb cap_running caps
                 then dset String.eqb "target" (AStr "running") kw else kw in
      Ok (cls, args', kw')
  | OtherOp _ => Ok (cls, args, kw)
  end.

(** ** The edit-config request *)

(** The parameters of [request] after [self], __init__.py:122-123 *)
Definition edit_params : list string := ["config"; "format"; "target"; "default_operation"; "test_option"; "error_option"].
(** How Python binds arguments to parameters *)
Fixpoint bind_pos (ps : list string) (args : list arg) : res kwargs :=
  match args, ps with
  | [], _ => Ok []
  | _ :: _, [] => Err TypeError
  | a :: r, p :: ps' => let! l := bind_pos ps' r in Ok ((p, a) :: l)
  end.
Definition bind_args (ps : list string) (args : list arg) (kw : kwargs) : res kwargs :=
  let! l := bind_pos ps args in
  if forallb (fun p => mem String.eqb (fst p) ps && negb (kw_in (fst p) l)) kw then Ok (l ++ kw) else Err TypeError.

(** A child of the edit-config element *)
Inductive part := PTarget (a : arg) | PError (a : arg) | PTest (a : arg) | PDefault (a : arg) | PConfig (a : arg) | PText (a : arg).
Definition opt_arg (o : option arg) : option arg := match o with Some ANone => None | _ => o end.
(** [request], __init__.py:122-155: the children of the element. The calls of ncclient,
    [datastore_or_url] and [validated_element], are kept as the argument they get; [has] tells
    which capabilities [self._assert] finds, and its exception is ConfigError here. The copy that
    [_append] makes is in CompileM.v. *)
Definition edit_request (has : string -> bool) (b : kwargs) : res (list part) :=
  let dflt k v := match kw_get k b with Some a => a | None => v end in
  let need c (r : list part) := if has c then Ok r else Err ConfigError in
  match kw_get "config" b with
  | None => Err TypeError
  | Some config =>
      let! e := match opt_arg (kw_get "error_option" b) with
                | None => Ok []
                | Some (AStr s) => if String.eqb s "rollback-on-error" then need ":rollback-on-error" [PError (AStr s)] else Ok [PError (AStr s)]
                | Some a => Ok [PError a]
                end in
      let! t := match opt_arg (kw_get "test_option" b) with None => Ok [] | Some a => need ":validate" [PTest a] end in
      let d := match opt_arg (kw_get "default_operation" b) with None => [] | Some a => [PDefault a] end in
      let f := dflt "format" (AStr "xml") in
      let is s := match f with AStr g => String.eqb g s | _ => false end in
      Ok (PTarget (dflt "target" (AStr "candidate")) :: e ++ t ++ d ++
          (if is "xml" then [PConfig config] else []) ++ (if is "text" then [PText config] else []))
  end.
