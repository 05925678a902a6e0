(** C69: names in a model convert back and forth. C70: the print of a model shows the model. *)
From Coq Require Import String Ascii List Bool Arith.
From Verif Require Import Base XmlM TagM TagSpec MDiffM MDiffSpec XPathM DepictM DepictSpec DepictPropsP
  PrintM PrintSpec PrintP PrintReadP PrintTotP PrintTailP PrintPropsP.
Import ListNotations.
Open Scope string_scope.
Open Scope list_scope.
Open Scope nat_scope.

(** ** C69
    Full statement: for all models. It is false for a prefix with a dot and for two modules
    with the same prefix, see below. *)
Theorem C69_url : forall prefix l m u, Known l -> model_init prefix l = Ok m -> In (prefix, u) l ->
  m_prefix m = prefix /\ m_url m = u /\
  (forall p v, In (p, v) l -> assoc String.eqb p (m_prefixes m) = Some v) /\
  (forall p v, In (p, v) l -> assoc String.eqb v (m_urls m) = Some p).
Proof. exact model_known. Qed.
Print Assumptions C69_url.
Theorem C69_to_prefix : forall prefix l m u0 p u n, Known l -> model_init prefix l = Ok m -> In (prefix, u0) l ->
  In (p, u) l -> Identifier n -> url_to_prefix m (etree u n) = Ok (p ++ ":" ++ n)%string.
Proof. exact to_prefix. Qed.
Print Assumptions C69_to_prefix.
Theorem C69_to_url : forall prefix l m u0 p u n, Known l -> model_init prefix l = Ok m -> In (prefix, u0) l ->
  In (p, u) l -> Identifier n ->
  prefix_to_url m (p ++ ":" ++ n)%string = Ok (etree u n) /\ prefix_to_url m n = Ok (etree u0 n).
Proof. exact to_url. Qed.
Print Assumptions C69_to_url.
(** The name that is printed leads back to the node. *)
Theorem C69_back_partial : forall prefix l m u0 p u n, Known l -> model_init prefix l = Ok m -> In (prefix, u0) l ->
  In (p, u) l -> Identifier n -> ~ In "."%char (chars prefix) ->
  exists d, url_to_prefix m (etree u n) = Ok d /\
    remove_model_prefix m d = (if String.eqb p prefix then n else p ++ ":" ++ n)%string /\
    prefix_to_url m (remove_model_prefix m d) = Ok (etree u n).
Proof. exact display_back. Qed.
Print Assumptions C69_back_partial.
Example C69_case : Known pr_l /\ model_init "m" pr_l = Ok pr_m /\ In ("m", "urn:m") pr_l /\ In ("x", "urn:aug") pr_l /\
  Identifier "s" /\ ~ In "."%char (chars "m") /\
  url_to_prefix pr_m "{urn:aug}s" = Ok "x:s" /\ remove_model_prefix pr_m "x:s" = "x:s" /\
  url_to_prefix pr_m "{urn:m}s" = Ok "m:s" /\ remove_model_prefix pr_m "m:s" = "s" /\ prefix_to_url pr_m "s" = Ok "{urn:m}s".
Proof.
  split; [exact pr_Known |]. split; [exact pr_init |]. split; [left; reflexivity |]. split; [right; left; reflexivity |].
  split; [ident |]. split; [nochar |]. repeat split.
Qed.
(** Unknown prefixes and URLs raise; a name alone stays. *)
Theorem C69_unknown : forall prefix l m u0 n, Known l -> model_init prefix l = Ok m -> In (prefix, u0) l -> Identifier n ->
  (forall p, Identifier p -> ~ In p (map fst l) -> prefix_to_url m (p ++ ":" ++ n)%string = Err KeyError) /\
  (forall u, Word u -> ~ In u (map snd l) -> url_to_prefix m (etree u n) = Err KeyError) /\
  url_to_prefix m n = Ok n /\ remove_model_prefix m n = n.
Proof. exact unknown_names. Qed.
Print Assumptions C69_unknown.
Example C69_unknown_case : Known pr_l /\ model_init "m" pr_l = Ok pr_m /\ In ("m", "urn:m") pr_l /\ Identifier "s" /\
  prefix_to_url pr_m "zz:s" = Err KeyError /\ url_to_prefix pr_m "{urn:zz}s" = Err KeyError.
Proof. split; [exact pr_Known |]. split; [exact pr_init |]. split; [left; reflexivity |]. split; [ident |]. split; reflexivity. Qed.
(** The prefix a.b is taken off axb:n too. *)
Theorem C69_dot_refuted : exists prefix l m u0 p u n d, Known l /\ model_init prefix l = Ok m /\ In (prefix, u0) l /\
  In (p, u) l /\ Identifier n /\
  url_to_prefix m (etree u n) = Ok d /\ prefix_to_url m (remove_model_prefix m d) <> Ok (etree u n).
Proof. exact dot_back. Qed.
Print Assumptions C69_dot_refuted.
(** Two modules with the same prefix: the model has the URL of the other, and its own nodes
    cannot be printed. *)
Theorem C69_twice_refuted : exists prefix l m t u, model_init prefix l = Ok m /\ In (prefix, u) l /\
  (forall p y, At t p y -> NamedNode l y) /\ m_url m <> u /\ print_model m t = Err KeyError.
Proof. exact twice_raises. Qed.
Print Assumptions C69_twice_refuted.

(** ** C70
    Full statement: for all trees. Proved: whatever is printed is the page of labelled
    trees, the lines of each section join, and two trees with the same print are alike if
    their names and texts are free of the characters of the marks. *)
Theorem C70_page : forall nm tail tree text, (forall x, In x (xkids tree) -> get_attr "type" x <> Some "other") ->
  emit_tree nm tail tree = Ok text ->
  exists a b c, Forall2 (Labelled (fun x n => nm x = Ok n) tail (xkids tree)) (filter in_data (xkids tree)) a /\
    Forall2 (Labelled (fun x n => nm x = Ok n) tail (xkids tree)) (filter in_rpcs (xkids tree)) b /\
    Forall2 (Labelled (fun x n => nm x = Ok n) tail (xkids tree)) (filter in_notifications (xkids tree)) c /\
    text = String.concat (String newline "") (page (xtag tree) a b c).
Proof. exact emit_page. Qed.
Print Assumptions C70_page.
Theorem C70_label : forall m x s, name_str m x = Ok s ->
  exists ty d f mk, get_attr "type" x = Some ty /\ url_to_prefix m (xtag x) = Ok d /\
    FlagsOf ty x f /\ MarkOf ty x mk /\ s = shown f mk (remove_model_prefix m d).
Proof. exact name_shown. Qed.
Print Assumptions C70_label.
(** What follows the name: the type behind the blanks, and the features. *)
Theorem C70_tail : forall x ty, get_attr "type" x = Some ty ->
  (model_tail x = None <-> ShownType ty x = None /\ get_attr "if-feature" x = None) /\
  forall f sp, model_tail x = Some f ->
    f sp = (match ShownType ty x with Some d => sp ++ d | None => "" end ++
            match get_attr "if-feature" x with Some g => " {" ++ g ++ "}?" | None => "" end)%string.
Proof. exact tail_text. Qed.
Print Assumptions C70_tail.
Example C70_tail_case : exists f, model_tail (Elem "{u}a" None [("type", "leaf"); ("datatype", "string"); ("if-feature", "x y")] []) = Some f /\
  f "   " = "   string {x y}?".
Proof. eexists. split; reflexivity. Qed.
Theorem C70_joins : forall l, Joins (draws "    " l).
Proof. exact draws_joins. Qed.
Print Assumptions C70_joins.
Theorem C70_read_partial : forall prefix u0 l m, Known l -> model_init prefix l = Ok m -> In (prefix, u0) l ->
  ~ In "."%char (chars prefix) ->
  forall t1 t2 text, Forall (Printable l) (xkids t1) -> Forall (Printable l) (xkids t2) ->
  NoLines (xtag t1) -> NoLines (xtag t2) ->
  print_model m t1 = Ok text -> print_model m t2 = Ok text ->
  xtag t1 = xtag t2 /\ Forall2 Alike (filter in_data (xkids t1)) (filter in_data (xkids t2)) /\
  Forall2 Alike (filter in_rpcs (xkids t1)) (filter in_rpcs (xkids t2)) /\
  Forall2 Alike (filter in_notifications (xkids t1)) (filter in_notifications (xkids t2)).
Proof. exact print_read. Qed.
Print Assumptions C70_read_partial.
Theorem C70_prints : forall prefix u0 l m tree, Known l -> model_init prefix l = Ok m -> In (prefix, u0) l ->
  (forall p y, At tree p y -> NamedNode l y) -> exists text, print_model m tree = Ok text.
Proof. exact print_total. Qed.
Print Assumptions C70_prints.
Theorem C70_compiled_prints : forall ns kids xs l prefix u0 m name,
  Forall (Named ns) kids -> compile_nodes ns kids = Ok xs ->
  (forall md u, assoc String.eqb md ns = Some u -> exists p, In (p, u) l) ->
  Known l -> model_init prefix l = Ok m -> In (prefix, u0) l ->
  exists text, print_model m (Elem name None [] xs) = Ok text.
Proof. exact compiled_prints. Qed.
Print Assumptions C70_compiled_prints.
Example C70_case : Known pr_l /\ model_init "m" pr_l = Ok pr_m /\ In ("m", "urn:m") pr_l /\ Forall (Named dp_ns) dp_kids /\
  (forall md u, assoc String.eqb md dp_ns = Some u -> exists p, In (p, u) pr_l) /\
  Forall (Printable pr_l) (xkids pr_tree) /\ (forall x, In x (xkids pr_tree) -> get_attr "type" x <> Some "other") /\
  xkids pr_tree <> [] /\ NoLines (xtag pr_tree) /\ print_model pr_m pr_tree = Ok pr_text.
Proof.
  split; [exact pr_Known |]. split; [exact pr_init |]. split; [left; reflexivity |]. split; [exact dp_Named |].
  split; [exact pr_urls |]. split; [exact pr_Printable |]. split; [exact pr_no_other |]. split; [discriminate |].
  split; [nochar | exact pr_prints].
Qed.
Theorem C70_dot_refuted : exists prefix l m t1 t2 text u0, Known l /\ model_init prefix l = Ok m /\ In (prefix, u0) l /\
  Forall (Printable l) (xkids t1) /\ Forall (Printable l) (xkids t2) /\
  print_model m t1 = Ok text /\ print_model m t2 = Ok text /\ ~ Forall2 Alike (xkids t1) (xkids t2).
Proof. exact dot_same. Qed.
Print Assumptions C70_dot_refuted.

(** A comparison and its three parts can be printed: an added node has its name from the
    second model, every other from the first. *)
Theorem C70_compare_prints : forall prefix1 u1 l1 m1 prefix2 u2 l2 m2 t1 t2 d,
  Known l1 -> model_init prefix1 l1 = Ok m1 -> In (prefix1, u1) l1 ->
  Known l2 -> model_init prefix2 l2 = Ok m2 -> In (prefix2, u2) l2 ->
  (forall p y, At t1 p y -> NamedNode l1 y) -> (forall p y, At t2 p y -> NamedNode l2 y) ->
  model_diff false t1 t2 = Ok d ->
  (exists text, print_diff m1 m2 d = Ok text) /\
  forall msg d', part msg d = Some d' -> exists text, print_diff m1 m2 d' = Ok text.
Proof. exact compare_prints. Qed.
Print Assumptions C70_compare_prints.
(** Each line says what happened to the node. *)
Theorem C70_compare_page : forall m1 m2 tree text, (forall x, In x (xkids tree) -> get_attr "type" x <> Some "other") ->
  print_diff m1 m2 tree = Ok text ->
  exists a b c, let T := ToldOf (fun x n => name_str m1 x = Ok n) (fun x n => name_str m2 x = Ok n) in
    Forall2 T (filter in_data (xkids tree)) a /\ Forall2 T (filter in_rpcs (xkids tree)) b /\
    Forall2 T (filter in_notifications (xkids tree)) c /\
    text = String.concat (String newline "") (page (xtag tree) a b c).
Proof. exact diff_page. Qed.
Print Assumptions C70_compare_page.
Example C70_compare_case : (forall p y, At pr_old p y -> NamedNode pr_l y) /\ (forall p y, At pr_new p y -> NamedNode pr_l y) /\
  exists d, model_diff false pr_old pr_new = Ok d /\ print_diff pr_m pr_m d = Ok pr_diff_text /\
    exists d', part "deleted" d = Some d' /\ print_diff pr_m pr_m d' =
      Ok (String.concat (nl "") ["module: m"; "    +--rw top"; "       +--rw x:s?     deleted"]).
Proof.
  split; [exact pr_old_named |]. split; [exact pr_new_named |]. eexists. split; [vm_compute; reflexivity |].
  split; [vm_compute; reflexivity |]. eexists. split; vm_compute; reflexivity.
Qed.
