(** C66, C67: the XPath of a node and the statement that defines it. *)
From Coq Require Import String Ascii List Bool Arith.
From Verif Require Import Base XmlM CalcM DataSpec TagM TagSpec XPathM XPathSpec XPathP XPathPropsP.
Import ListNotations.
Open Scope string_scope.
Open Scope list_scope.

(** ** C66
    Full statement: for all configs. It is false for values that are empty or have
    quotes, see below. Proved: the XPath of a node selects this node and no other, in every
    notation with prefixes, when the values on the way can be written. The path can be read
    in one way only. *)
Theorem C66_selects_partial : forall T urls env od s x pos n,
  Env T urls env -> valid s x = true -> Writable T urls s x pos -> pos <> [] -> node_at x pos = Some n ->
  exists str p, get_xpath T (KPrefix, od, Colon) true s x pos = Ok str /\ Forall StepOK p /\ str = show_path p /\
    (od = NoOmit -> Prefixed p) /\ select env "" x p = [pos] /\
    forall q, Forall StepOK q -> show_path q = str -> q = p.
Proof. exact get_xpath_selects. Qed.
Print Assumptions C66_selects_partial.

(** With instance=False: the node and its siblings of the same name. *)
Theorem C66_selects_all_partial : forall T urls env od s x pos n,
  Env T urls env -> valid s x = true -> Writable T urls s x pos -> pos <> [] -> node_at x pos = Some n ->
  exists str p, get_xpath T (KPrefix, od, Colon) false s x pos = Ok str /\ Forall StepOK p /\ str = show_path p /\
    (od = NoOmit -> Prefixed p) /\ (forall q, In q (select env "" x p) <-> like x pos q) /\
    forall q, Forall StepOK q -> show_path q = str -> q = p.
Proof. exact get_xpath_all. Qed.
Print Assumptions C66_selects_all_partial.

(** The prefixes of [Config.ns] give such an environment. *)
Theorem C66_namespaces : forall T urls, PrefixesDistinct T -> NoNumbered T -> NoDup urls ->
  (forall e s, Sole T KUrl e -> In s specials -> e_url s = e_url e -> e_prefix s = e_prefix e) ->
  Env T urls (fun p => assoc String.eqb p (get_ns T urls)).
Proof. exact get_ns_Env. Qed.
Print Assumptions C66_namespaces.

Example C66_case :
  Env xp_table xp_urls xp_env /\ valid xp_schema xp_x = true /\
  Writable xp_table xp_urls xp_schema xp_x [0; 2; 1; 0] /\
  get_xpath xp_table LXML_XPATH true xp_schema xp_x [0; 2; 1; 0] =
    Ok ("/if:ifs/if:if[if:name=" ++ dq ++ "Gi0/1" ++ dq ++ "]/e:eth/e:speed")%string /\
  get_xpath xp_table XPATH false xp_schema xp_x [0; 2] = Ok "/if:ifs/if".
Proof. split; [exact xp_Env |]. split; [reflexivity |]. split; [exact xp_Writable |]. split; reflexivity. Qed.

(** Schema nodes, and the notation with model names: different nodes have different paths. *)
Theorem C66_schema_paths_differ : forall T urls env od t1 t2 s, Env T urls env ->
  Forall (Known T urls) t1 -> Forall (Known T urls) t2 ->
  get_schema_xpath T (KPrefix, od, Colon) t1 = Ok s -> get_schema_xpath T (KPrefix, od, Colon) t2 = Ok s -> t1 = t2.
Proof. exact schema_xpath_inj. Qed.
Print Assumptions C66_schema_paths_differ.
Theorem C66_ytool_paths_differ : forall T urls env m u t1 t2 s, Env T urls env ->
  Forall (Known T urls) t1 -> Forall (Known T urls) t2 ->
  get_ytool T m u t1 = Ok s -> get_ytool T m u t2 = Ok s -> t1 = t2.
Proof. exact ytool_inj. Qed.
Print Assumptions C66_ytool_paths_differ.
Example C66_schema_case :
  get_schema_xpath xp_table XPATH [u_if "ifs"; u_if "if"; u_eth "eth"] = Ok "/if:ifs/if/e:eth" /\
  Forall (Known xp_table xp_urls) [u_if "ifs"; u_if "if"; u_eth "eth"].
Proof.
  split; [reflexivity |]. constructor; [apply known_if; plain |]. constructor; [apply known_if; plain |].
  constructor; [apply known_eth; plain | constructor].
Qed.

(** A value with quotes gives a path that reads as another one, which selects nothing. *)
Theorem C66_quote_refuted : exists T env s x pos str p, valid s x = true /\
  get_xpath T LXML_XPATH true s x pos = Ok str /\ show_path p = str /\ Forall StepOK p /\ select env "" x p = [].
Proof.
  exists xp_table, xp_env, xp_schema, xp_quote, [0; 0]. destruct bad_quote as (H1 & str & H2 & H3). exists str, bad_path. tauto.
Qed.
Print Assumptions C66_quote_refuted.

(** An empty value gives the path of the entry whose value is the word None. *)
Theorem C66_empty_refuted : exists T env s x a b p, valid s x = true /\ a <> b /\
  get_xpath T LXML_XPATH true s x a = Ok (show_path p) /\ get_xpath T LXML_XPATH true s x b = Ok (show_path p) /\
  select env "" x p = [b].
Proof.
  exists xp_table, xp_env, xp_schema, xp_none, [0; 0], [0; 1], none_path. destruct bad_none as (H1 & H2 & H3 & H4).
  split; auto. split; [discriminate | auto].
Qed.
Print Assumptions C66_empty_refuted.

(** The notation that omits the prefix of the module is documented with
    ifs/ifs/if/e:eth/e:speed (composer.py:189-193). The code omits inherited prefixes
    instead. *)
Theorem C66_ytool_refuted : exists T m u tags,
  get_ytool T m u tags = Ok "ifs/ifs/if/e:eth/speed" /\
  map (split_tag Brace) tags = [("urn:if", "ifs"); ("urn:if", "if"); ("urn:eth", "eth"); ("urn:eth", "speed")] /\
  u = "urn:if".
Proof.
  exists xp_table, "ifs", "urn:if", [u_if "ifs"; u_if "if"; u_eth "eth"; u_eth "speed"]. repeat split; reflexivity.
Qed.
Print Assumptions C66_ytool_refuted.

(** ** C67
    Full statement: for config and schema nodes. It is false for config nodes inside list
    entries and choices. Proved: for all schema nodes. *)
Theorem C67_schema_node : forall T m l tags t, Clear m -> Forall2 (TagOf T) l tags -> l <> [] ->
  (schema_statement T m tags = Ok (Some t) <-> Reached m l t).
Proof. exact schema_statement_iff. Qed.
Print Assumptions C67_schema_node.
Theorem C67_schema_node_returns : forall T m l tags, Forall2 (TagOf T) l tags -> exists r, schema_statement T m tags = Ok r.
Proof. exact schema_statement_total. Qed.
Print Assumptions C67_schema_node_returns.

(** And for config nodes below containers only, when no choice is in between. *)
Theorem C67_config_node_partial : forall T m s x pos tr l t, Clear m -> pos <> [] -> trail s x pos = Ok tr ->
  (forall i cs c, nth_error tr i = Some (cs, c) -> S i < length tr -> sty cs <> TList /\ sty cs <> TLeafList) ->
  Forall2 (TagOf T) l (map (fun sc => xtag (snd sc)) tr) ->
  (config_statement T m s x pos = Ok (Some t) <-> Reached m l t).
Proof. exact config_statement_iff. Qed.
Print Assumptions C67_config_node_partial.

Example C67_case :
  Clear xp_stmt /\ Forall2 (TagOf xp_table) xp_ids [u_if "ifs"; u_if "if"; u_eth "eth"; u_eth "speed"] /\
  schema_statement xp_table xp_stmt [u_if "ifs"; u_if "if"; u_eth "eth"; u_eth "speed"] = Ok (Some (Stmt "speed" "e" [])) /\
  Forall2 (TagOf xp_table) [("if", "ifs"); ("if", "tag")] [u_if "ifs"; u_if "tag"] /\
  config_statement xp_table xp_stmt xp_schema xp_x [0; 1] = Ok (Some (Stmt "tag" "if" [])).
Proof.
  split; [exact xp_Clear |]. split; [exact xp_TagOf |]. split; [reflexivity |]. split; [exact xp_TagOf_tag | reflexivity].
Qed.

(** For no config node inside an entry of a list with keys is the statement found. *)
Theorem C67_in_list_refuted : forall T urls env m s x pos n tr, ArgsOK m -> Env T urls env -> valid s x = true ->
  Writable T urls s x pos -> pos <> [] -> node_at x pos = Some n -> trail s x pos = Ok tr ->
  (exists i cs c, nth_error tr i = Some (cs, c) /\ S i < length tr /\ sty cs = TList /\ s_keys (si cs) <> []) ->
  config_statement T m s x pos = Ok None.
Proof. exact config_statement_in_list. Qed.
Print Assumptions C67_in_list_refuted.
Example C67_in_list_case :
  ArgsOK xp_stmt /\ Env xp_table xp_urls xp_env /\ valid xp_schema xp_x = true /\
  Writable xp_table xp_urls xp_schema xp_x [0; 2; 1; 0] /\
  config_statement xp_table xp_stmt xp_schema xp_x [0; 2; 1; 0] = Ok None /\
  schema_statement xp_table xp_stmt [u_if "ifs"; u_if "if"; u_eth "eth"; u_eth "speed"] = Ok (Some (Stmt "speed" "e" [])).
Proof.
  split; [exact xp_NoBracket |]. split; [exact xp_Env |]. split; [reflexivity |]. split; [exact xp_Writable |]. split; reflexivity.
Qed.

(** Nor for a config node inside a choice. *)
Theorem C67_in_choice_refuted : exists T m s x pos tags t tr,
  trail s x pos = Ok tr /\ config_statement T m s x pos = Ok None /\ schema_statement T m tags = Ok (Some t) /\
  last (map (fun sc => stag (fst sc)) tr) "" = last tags "".
Proof.
  exists xp_table, xp_stmt, xp_schema, xp_x, [0; 4], [u_if "ifs"; u_if "ch"; u_if "one"; u_if "uno"], (Stmt "uno" "if" []).
  exact statement_in_choice.
Qed.
Print Assumptions C67_in_choice_refuted.
