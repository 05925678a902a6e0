(** Details of C25, C46, C67, C68 and C72 that mutations of the model showed to be missing. *)
From Coq Require Import String Ascii List Bool Arith.
From Verif Require Import Base XmlM CalcM NetconfM ConfigM DataSpec CompareSpec HeapM HeapSpec ExampleM HeapPropsP TagM MDiffM CompatM ExecM DepictM DepictPropsP TightSpec TightP.
From Verif Require XPathM MDiffSpec MDiffPropsP.
Import ListNotations.
Open Scope string_scope.
Open Scope list_scope.

(** ** C25
    A comparison of two Config objects leaves all objects alone and says what the data of the
    two says. *)
Theorem C25_compare : forall op s h i j x y, Sees h i [x] -> Sees h j [y] -> valid s x = true -> valid s y = true -> xtag x = xtag y ->
  exists b, step s h (CCompare op i j) = (h, Ok (VBool b)) /\ (b = true <-> Says op s x y).
Proof. exact objects_compared. Qed.
Print Assumptions C25_compare.
Example C25_compare_case : let h := run ex_schema empty_heap [CNew true false ex_a; CNew true false ex_b] in
  Sees h 0 [ex_a] /\ Sees h 1 [ex_b] /\ valid ex_schema ex_a = true /\ valid ex_schema ex_b = true /\ xtag ex_a = xtag ex_b /\
  snd (step ex_schema h (CCompare CmpNe 0 1)) = Ok (VBool true).
Proof.
  intro h. split; [apply (sees_intro h 0 0); vm_compute; reflexivity |]. split; [apply (sees_intro h 1 1); vm_compute; reflexivity |].
  split; [vm_compute; reflexivity |]. split; [vm_compute; reflexivity |]. split; [reflexivity |]. vm_compute. reflexivity.
Qed.

(** ** C46
    The copies of schema nodes in a diff have the attributes of the nodes that are compared,
    the mark, and no others. *)
Theorem C46_attributes : forall p t m y, MDiffSpec.At (copy_subtree t m) p y -> exists x, MDiffSpec.At t p x /\ xtag y = xtag x /\ xtext y = xtext x /\
  (m <> "" -> get_attr "diff" y = Some m) /\
  (forall k, k <> "diff" -> (In k shown_attrs -> get_attr k y = get_attr k x) /\ (~ In k shown_attrs -> get_attr k y = None)).
Proof. exact process_shows. Qed.
Print Assumptions C46_attributes.
Example C46_attributes_case : exists y, MDiffSpec.At (copy_subtree MDiffPropsP.md_new "added") ["{u}box"; "{u}mtu"] y /\ get_attr "diff" y = Some "added".
Proof.
  exists (process_attrib "added" (MDiffPropsP.el "{u}mtu" "leaf" [("datatype", "int16")] [])). split; [| reflexivity].
  apply MDiffPropsP.At_nodes. vm_compute. tauto.
Qed.

(** ** C67
    A path finds a statement only if it starts with one slash. *)
Theorem C67_absolute : forall m p t, XPathM.get_statement m p = Some t -> Absolute p.
Proof. exact absolute_only. Qed.
Print Assumptions C67_absolute.
Example C67_absolute_case : let m := XPathM.Stmt "acl" "acl" [XPathM.Stmt "acls" "acl" []] in
  XPathM.get_statement m "/acl:acls" <> None /\ XPathM.get_statement m "//acl:acls" = None /\ XPathM.get_statement m "acl:acls" = None.
Proof. repeat split; vm_compute; try reflexivity; discriminate. Qed.

(** ** C68
    The schema node carries the annotations of tailf, each with its argument or with the
    empty string, and no attribute with a namespace besides. *)
Theorem C68_annotations : forall ns m i ks x, depict ns m (YStmt i ks) = Ok x ->
  (forall e k, In e (y_ext i) -> Annotates ns e k -> (forall e', In e' (y_ext i) -> Annotates ns e' k -> snd e' = snd e) ->
    get_attr k x = Some (match snd e with Some v => v | None => "" end)) /\
  (forall r, (forall e, In e (y_ext i) -> ~ Annotates ns e (String "{" r)) -> get_attr (String "{" r) x = None).
Proof. exact annotated. Qed.
Print Assumptions C68_annotations.
Example C68_annotations_case : exists x, depict dp_ns MNone dp_data = Ok x /\ get_attr "{urn:tailf}info" x = Some "text" /\
  exists e, In e (y_ext (yi dp_data)) /\ Annotates dp_ns e "{urn:tailf}info".
Proof.
  eexists. split; [vm_compute; reflexivity |]. split; [vm_compute; reflexivity |]. eexists. split; [left; reflexivity |].
  exists "tailf-common", "info", "urn:tailf". repeat split; vm_compute; reflexivity.
Qed.

(** The nodes that are compiled as data are those that RFC 7950 calls so. *)
Theorem C68_data : forall t, is_data t = true <-> DataNode t.
Proof. exact is_data_iff. Qed.
Print Assumptions C68_data.

(** ** C72
    How the arguments of edit-config are bound: by position in the order of the signature, by
    keyword otherwise; too many, unknown and doubled arguments are refused. *)
Theorem C72_binds : forall args kw,
  (exists b, bind_args edit_params args kw = Ok b /\ length args <= 6 /\
     (forall i n a, nth_error edit_signature i = Some n -> nth_error args i = Some a -> kw_get n b = Some a) /\
     (forall n, kw_get n kw <> None -> kw_get n b = kw_get n kw) /\
     (forall n a, In (n, a) kw -> In n edit_signature /\ forall i, nth_error edit_signature i = Some n -> length args <= i)) \/
  (bind_args edit_params args kw = Err TypeError /\
    (6 < length args \/ exists n a, In (n, a) kw /\ (~ In n edit_signature \/ exists i, nth_error edit_signature i = Some n /\ i < length args))).
Proof. exact edit_binds. Qed.
Print Assumptions C72_binds.
Example C72_binds_case : bind_args edit_params [AStr "c"; AStr "xml"; AStr "running"; AStr "merge"; AStr "set"; AStr "stop-on-error"] [] <> Err TypeError /\
  bind_args edit_params [AStr "c"] [("config", AStr "d")] = Err TypeError.
Proof. split; vm_compute; [discriminate | reflexivity]. Qed.
