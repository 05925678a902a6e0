# Design

## Method

The Python code in /repo/src/ncdiff is read as text and transcribed, function by
function, into total Gallina functions (`rocq/theories/*M.v`, the `M` stands for
model). Exceptions are values of a `res` type. Every definition cites the lines it
transcribes and says where it simplifies. Specifications are separate, small
definitions (`*Spec.v`) that do not use the model's helpers where avoidable.
Proofs are in `*P.v` files. The theorems about the properties C01... are in
`Props*.v`, each with a satisfiability example and `Print Assumptions`.

Where a property is false of the code, the theorem is named `..._refuted`, gives
a concrete input accepted by the API on which the code misbehaves, and the
strongest true restriction is proved next to it (`..._partial` if something of
the English statement is missing).

## Plan per property

| id | modelled code | how it is proved |
|----|---------------|------------------|
| C01, C02 | `_pair_children`, `_node_le`, schema lookup | datastore semantics (instance path -> value, user order as sequences); `_node_le` is proved equivalent to inclusion by induction on the tree |
| C03 | `le, lt, ge, gt, eq, ne` | case analysis on the two `_node_le` results including exceptions |
| C04 | `Config.__bool__` | from the definition of `_node_le` on the empty config |
| C05-C07, C09, C11 | `node_sub`, `get_config_replace`, `set_create_operation`, `set_delete_operation`, `node_add` and its eight helpers, `add_attribute_at_depth` | a relation "d is a correct delta from a to b"; (i) `node_sub` produces such a delta for all options, (ii) `node_add` applied to any such delta gives b; counterexamples for choices, reordering, quotes in keys, top-level leaf-lists |
| C05-C08, C10: moves | `_node_add_without_peer_list`, `_node_add_with_peer_list` and their leaf-list twins as far as they place user-ordered entries | `replay` (MoveSpec.v) says on the two sequences of entries alone where applying the moves one by one ends; the invariant of `node_add` is that the user-ordered entries of the result are a prefix of that replay; the replay is the destination for every pair with one cut, not for a reversal of three |
| C05-C07, C10, C11: all pairs | the same | SumSpec.v says what the sum is for every pair of configs (`Landing`): the data of the destination, the order to which the moves lead, the nodes of old cases, and which nodes are set as wholes (`Whole`: by preferred_replace='replace' or at the depth of diff_type='replace'); SumP.v proves it and that the sum is the destination exactly if, at the nodes not set as wholes, the moves end in place and no case switches (`Fits`). The delta relation of DeltaR.v carries the depth of the node for this. Hypotheses left: each config uses one case of each choice, entries can be named. Where the operation replace is put on the root it is ignored; JoinSpec.v says what two configs are when merged (order included), and MergeOrderP.v, RootP.v prove that the destination is then reached exactly if it extends the source. ForeignP.v: the marks of minimum-replace have no effect on the sum |
| C08 | `ConfigDelta.__neg__`, `Config.__sub__` | corollary of C05 with swapped operands, also as an equivalence; a pair for which only the way there works is a witness that the two conditions differ |
| C10 | insert/move code of `node_add` | sequence lemma for consistent order; counterexample for reversal |
| C12 | `node_add` without operations | induction on the second tree, pointwise on paths |
| C13, C57 | `node_add` and helpers | induction on the delta |
| C14 | `_pair_children` | induction on the sibling lists |
| C59 | `node_add` and helpers | the entries of one tag followed through both loops |
| C15, C58 | `node_sub` | from the delta relation of C05, for every delta that `node_sub` returns, also with keys that cannot be named (relation `RT` in WorkP.v: a value or the TypeError of a missing text) |
| C16 | `node_sub` against a specification of an RFC 6241/7950 server that executes the edit in document order (ServerSpec.v, a specification, not code of /repo) | the delta relation of C05 with a condition on deleted nodes; induction on the delta with an invariant on the server's children (ServerP.v); three refutations by computation. The order of system-ordered siblings is kept by this server and ignored by the conclusion |
| C17, C18 | `_trim_defaults` | induction on the tree; what is left is given by paths (TrimSpec.v) and, for all schemas, child by child (TrimTreeSpec.v) |
| C19 | `_validate_node` | induction on the tree; counterexample: attributes of leaves are not looked at |
| C20 | `_node_filter` | equality with a specification that prunes by a predicate on positions |
| C21 | `remove_read_only` | same |
| C22, C23 | `reorder`, `reorder_children`, `random_seed` | permutation proof with the random draw as argument; state machine for the two options |
| C24 | `add_attribute_at_depth` | BFS queue invariant |
| C25 | `Config.__init__`, `ConfigDelta.__init__`, all operators (HeapM.v) | trees at addresses, in-place trimming and validation with partial effects on exceptions; invariant over all histories (HeapP.v, LiveP.v, HistP.v); five refutations |
| C26-C28 | `ListDiff.compare`, `get_diff` | induction on the lists; counterexample for duplicated lines |
| C29 | `config2list`, `list2config` | induction on trees |
| C30-C33 | `remove_duplicate_cammands`, `remove_unnecessary_*`, `handle_command` | induction on command lists; counterexamples where a prefix ends inside a word |
| C34, C35 | `handle_orderless` | invariants of the loops |
| C36 | `handle_sibling_cammands` | multiset of commands |
| C37-C39 | `convert_tag`, `convert_ns`, `split_tag`, `_get_ns` | string lemmas; the regular expressions exactly, in TagSplitSpec.v |
| C40-C42 | `IdentityRef`, `InstanceIdentifier` | string lemmas, invariants of `cut` |
| C43, C44, C65 | `load_model`, `get_schema_node`, `roots`, `namespaces`, `scan_models` (DeviceM.v) | invariants over histories of calls; the answer is compared with a path specification and with the history |
| C66, C67 | `Composer.get_xpath`, `CompilerContext.get_statement`, `get_child` (XPathM.v); XPath 1.0 steps and predicates are specified in XPathSpec.v | induction over the position; the written path is read back uniquely; paths into list entries never lead to a statement |
| C68 | `depict_a_schema_node`, `set_access`, the part of `compile` that walks over the module, `Composer.keys` (DepictM.v); pyang's validation gives the statements, the type text of `get_type`-like helpers is an input | induction over the statement; the attributes set are looked up one by one; the key argument is split into names; all attributes but access exactly, in DepictAttrSpec.v |
| C69 | `Model.__init__`, `prefix_to_url`, `url_to_prefix`, `remove_model_prefix` (PrintM.v); the dot is the only special character of a prefix that is modelled | look-up in a table with distinct keys; the prefix as a pattern matches itself only |
| C70 | `emit_tree`, `emit_children`, `get_width`, `get_depth_str`, `get_flags_str`, `get_name_str`, `get_datatype_str` and the same of `ModelDiff` (PrintM.v); the memory of `get_width` is C99 | induction over the tree: the lines are the drawing of a labelled tree; drawings are injective by induction on the number of lines |
| C71 | `ConfigCompatibility`, `Config.roots`, `Config.models`, `ConfigDelta.models`, the checks in `ConfigDelta.__init__` and `Config.__add__` (CompatM.v), with `ModelDiff` of MDiffM.v; two devices do not share a model object | the models in use by sets; the diff is empty exactly for trees with the same nodes (C45); lookups in two schemas that differ in the order of siblings are related by induction, and comparison, validity and trimming by induction over the config |
| C72 | ExecM.v: `execute` up to the call of ncclient (operation by name or class, `pop_models`, `check_models`, `get_access_type`, the filter, source, target), Python's binding of arguments, and the children of the edit-config element. | ExecSpec.v says what reading operations must ask for. Invariant of the fold over the roots gives the filter exactly; joined with C68's `depict` for compiled modules. Six findings as `_refuted`. |
| C73 | LoadableM.v: `models_loadable`: the two requests with an arbitrary answer each, the XPath of element names, `sorted` with None, the regular expression on the capabilities, the kept value. | LoadableSpec.v: elements reached by a path, replies of RFC 6022 and RFC 7895, capabilities of RFC 6020. Induction over paths, lists and texts; `module=` has no border, so its first place is the one after the given prefix. Every reply is covered (positions of elements in the tree). Four findings as `_refuted`. |
| C74 | `DepsM.v`: `update_dependencies`, `get_dependencies`, the set that `compile` loads, `namespaces`, function by function over parsed statements (lists of keyword, argument, substatements; pyang's parser is not modelled) | `DepsSpec.v` speaks of statements only (Imports, Includes, First, Latest, Visible); induction over the updates in `DepsP.v` |
| C75 | `DepsM.v`: one step of a worker per read or write of the shared tree (check for None, make the tree, look for old nodes, remove one, append, fill); nodes have identities; a node is filled in one step and statements that raise are left out | invariant in `DepsRaceP.v`: what is recorded, in hand and in the queue is a permutation of the files; blank nodes belong to one thread each; measure for termination; refuted schedules by computation |
| C76 | `_url_to_prefix`, the key attribute with prefixes, and the reading of names by lxml's `find` with `namespaces` (KeyNsM.v); predicates of the form [name='value'] only | KeyNsSpec.v says what a prefixed or bare name means in an element; the condition under which writing at one element and reading at another agree is exact; the simplification of NetconfM.v (names kept as {url}name) is justified by C76_simplified |
| C77 | `sub` with `replace_xpath` and `add_attribute_by_xpath` (MarkM.v); the value of the expression is arbitrary: any set of positions, texts, a string, a number, an exception | MarkSpec.v says by position what marking is and when two edits have the same NETCONF and YANG attributes; `node_add` is shown to give the same result or error for such edits by induction on its depth |
| C78 | operators of `Config` and `ConfigDelta` with Python's dispatch over all kinds of operands, the constructor of `ConfigDelta` check by check, `nc` with its options as strings (OperM.v) | OperSpec.v has tables of which kinds go together and when two configs may be combined (compatible devices, loaded models); the laws follow from C05, C08 and C71 by showing that the check of compatibility passes and that both devices see the same nodes |
| C79 | `set_leaf_datatype_value`, `type_values` and its four branches over types with typedefs and unions (TypeM.v); a type is the tree that pyang validated | TypeSpec.v says by an inductive relation which names a type admits and what an item of a list with bars is; induction over types |
| C80 | `compile` with the cache of XML files, `build_dependencies`, and what one compiler remembers (`module_namespaces`, `module_prefixes`, `identity_deps`) as a state machine over events (BuildM.v); pyang and `load_context` are oracles that depend on the files | BuildSpec.v has the lives of a folder as an inductive predicate; the invariant says that every kept tree is one that a new compiler gives and that the kept record asks for the same modules |
| C81 | `_parse_statement` and `Position` over the tokens that pyang's tokenizer delivers (ParseM.v) | ParseSpec.v has the grammar of RFC 7950 as an inductive relation and says what nested places are; soundness by induction on the fuel, completeness by induction on the grammar, and the fuel is shown to be enough for every text |
| C82 | `validate_context`, `sort_modules`, `internal_reset` over insertion-ordered dictionaries (ContextM.v); `validate` of pyang neither adds nor removes modules | ContextSpec.v says what the newest revision is; invariants of the folds |
| C83 | `ModelDiff.compare` with `print_node` and `print_value` (ContextM.v); the nodes found are arbitrary | injectivity of the lines of the page |
| C84 | `config_add`, `node_add`, `_trim_defaults`, `_validate_node` and comparisons as for C01-C11 | AlikeSpec.v says what it is for two trees to differ in meaningless orders only, and it is shown to be equality of data; a two-run simulation: the loops of `node_add` are split by tag, those of user-ordered tags run in lockstep, the others commute up to permutation; for deltas the loops of `node_sub` and `get_config_replace` are first written as lists of edits of the two lists of children (AlikeOpsP.v), then the same argument applies to these and to the insert, value and key attributes |
| C85 | `get_cli`, `list2cli` and all below as for C26-C38; the device is a specification (RunDevSpec.v), with any relation for which lines a command makes go, and any set of commands that show as lines | the commands at one place are characterised as trees (RunTreesP.v), what a list of commands makes of a line is computed from the last one that concerns it (RunDevP.v), one level follows (RunApplyP.v) and all levels by induction on the depth of the diff (RunReachP.v); Obeys states what is expected of the device and is checked by a function that is proved sound for the example |
| C86 | `__eq__`, `__str__` as one text (RunEqM.v) on top of RunningM | the printed text is a list of tokens (level, sign, line), printing tokens is injective because no line begins with a blank or contains a newline, which holds for all that is parsed, and the list of tokens determines the tree by induction on the depth (RunEqP.v) |
| C87 | `lru_cache` around `_parse_text`, the cache of types in `_pair_children`, `_get_peers`, `_is_peer`, `_node_le` with element identities (CacheM.v), as computations with a state | refinement: the cached comparison gives what CalcM.v gives from every state in which the kept texts are right, by induction on the depth (CacheP.v); the cache itself refines a specification that only looks at the past (CacheSpec.v) |
| C88 | `_parse_text` with identityref and instance-identifier values in the cached comparison (CacheM.v, RefsM.v) | the comparison of trees with references is that of CalcM.v for the trees in default form (CacheP.v, part of the induction of C87); configs have the same default form exactly if they say the same, by induction on trees with C40 and C64 at the leafs (RefsP.v) |
| C89 | `default_ns` and the dict `_default_ns` while texts are converted (DefNsM.v) | the conversion with the dict refines that of RefM.v; what is noted is the set of URLs of the path, by induction on what the text denotes (DefNsP.v); reading is the relation of C40 and C64 with an empty table of modules |
| C90 | `parse_instanceid` (PidM.v) | induction on the words of a text (PidP.v) |
| C91 | `find_by_tags`, `add_attribute_by_tags` (FindM.v) | FindSpec.v: tags that occur in this order on the way to a node, and in how many ways; induction on the tree (FindP.v) |
| C92 | `default_pos`, `set_create` (NetconfM.v) | DefaultSpec.v: non-presence containers and default cases on the way to a leaf with a default; nodes of the data at positions; induction on the schema (DefaultP.v), invariant of subtraction (CreateP.v) |
| C93 | `nc_sub`, `config_replace`, `seq_attrs`, `set_create`, `mk_del` (NetconfM.v) | VocabSpec.v: the four names spelled out and what RFC 6241/7950 allow; invariant of the working lists before and after the insert attributes (VocabP.v) |
| C94 | `nc_sub`, `node_sub`, `config_replace` (NetconfM.v) | MentionSpec.v: paths only in one config, nodes that differ, how gone nodes are handled; completeness by induction over the relation of DeltaR.v, minimality by an invariant of the working lists (MentionP.v) |
| C95 | `nc_sub`, `node_sub`, `config_replace`, `nc_add` (NetconfM.v) | OpaqueSpec.v: the schema with opaque nodes read as leaves, opaque nodes that meet; simulation between the two schemas up to ModelError, induction over Meets, invariant of the working list of sums (OpaqueP.v) |
| C96 | `node_le`, `config_new`, `nc_sub`, `config_replace`, `nc_add` (CalcM.v, ConfigM.v, NetconfM.v) | LayoutSpec.v: the tree without the text of its containers; every function commutes with it, by induction over trees and fuel (LayoutP.v, LayoutSubP.v); references of deltas by induction over their relation to both configs (LayoutPropsP.v) |
| C97 | `nc_sub`, `node_add`, `config_add_delta` (NetconfM.v, ConfigM.v) | AgainSpec.v: elements below an element, the two operations; relation between both configs and the delta (DeltaR.v) with the preferred deletion, then induction over the fuel of node_add with an invariant of both loops: entries, their content and their order stay those of b (AgainP.v) |
| C98 | `get_model_name`, `models_loaded` (OwnerM.v), `model_name`, `roots` (DeviceM.v) | OwnerSpec.v: which name was loaded earlier, the owner of a root, read off the history; induction over histories for the order of the dict of models, the last model of it that has a root (OwnerP.v) |
| C99 | WidthM.v: `emit_tree` with the dictionary `self.width` that `get_width` fills, over any number of prints of a tree that is changed in place between them. Simplified: elements are not moved. | WidthSpec.v: nodes at the same place have children with the same texts. Invariant: every kept width is that of all the trees; so each print equals the one without memory. For any changes: a width is the least multiple of three that leaves three blanks, of the parent as first seen; invariant over the calls. One finding as `_refuted`. |
| C100 | ReplyM.v: the end of `execute` and `take_notification`, `_get_ns` before and after `scan_models`, `xpath` of replies and notifications. What ncclient returns is one of three kinds with the URLs of its namespaces. | ReplySpec.v: which answers get namespaces, which URLs are built in. Case distinction and induction over the URLs, joined with C39. Two findings as `_refuted`. |
| C25, C46, C67, C68, C72: details | `edit_config` arguments, comparison methods, `process` of a diff, `Parser` paths and annotations | TightSpec.v: call signature, what a comparison answers, attributes shown, absolute paths, annotations; case analysis and induction (TightP.v), added after mutations survived |
| C45, C46 | `ModelDiff`: `compare_nodes`, `node_less`, `node_equal`, `get_peer`, `copy_subtree`, `process_attrib`, `trim` (MDiffM.v) | induction on schema trees; marks compared with sets of paths |
| C47 | `_get_latest_revision` over the keys of `modules` | invariant of the fold; the order of texts YYYY-MM-DD is the order of dates |
| C48 | the identity table of `compile` and `type_identityref_values`, statements as records | invariants of the fold (entries only grow; where an entry comes from); three refutations by computation |
| C49 | the loop of `set_leaf_datatype_value` | induction on the steps; refuted for unprefixed names after a foreign prefix; predicates not covered |
| C50-C52 | `download_all`, `download`, `DownloadWorker.run` (DownloadM.v) | labelled transition system with any number of workers; counting and tracking invariants; termination by a pair of measures |
| C53 | `load_context`, `ContextWorker.run` (DownloadM.v) | the same kind of system; unfinished tasks = queue + busy + raised |
| C54, C55 | `need_download`, `download_all`, `scan_models` (FolderM.v) | folder and trace over all histories of scans, killed after any effect |
| C56 | `_append` on nodes with their own namespace declarations; `SubElement` declares what is not in scope | induction on trees; refuted for comments |
| C62 | `RunningConfigDiff.__str__` | induction on diff trees |
| C63 | `random_depth`, `random_seed` of `ConfigDelta` | refuted by witnesses; proved where the draw keeps user-ordered entries in order: such a reordered delta is alike (C84) to the delta, and sums of alike edits are alike |
| C64 | `InstanceIdentifier.convert` (RefM.v) | the meaning of a path is a relation of its own (IidSpec.v); invariants of the three cutting phases block by block, and injectivity of the printed form; texts with blanks are a second way to write a path (BlankSpec.v): refusal by induction on the literals before; blanks before equals signs by the invariants of the phases again (BlankLateP.v); the rest as `_refuted` |
| C60, C61 | `list2cli`, `get_cli` | survival of each command through the loops, at every depth by induction on the way down; that the lines of a diff are lines of the texts; totality of every step; the deletions by index leave what the model without indexes says |

## What is modelled and what is not

Per source file of /repo/src/ncdiff, by function. Everything not named as left out is
transcribed in the model files given.

| file | model | left out |
|------|-------|----------|
| netconf.py | NetconfM.v, KeyNsM.v, MarkM.v, ConfigM.v, ReorderM.v, HeapM.v, FindM.v | the evaluation of `replace_xpath` by lxml, the parser class |
| calculator.py | CalcM.v, NetconfM.v, RefM.v, CacheM.v, RefsM.v | the cache of texts and references inside sub and add (C87, C88 are about comparisons), constructors |
| config.py | ConfigM.v, HeapM.v, OperM.v, CompatM.v, FilterM.v, ReorderM.v | `__repr__`, `__str__`, thin delegations to the device |
| composer.py | TagM.v, DepictM.v, DeviceM.v, XPathM.v | constructor |
| ref.py | RefM.v, DefNsM.v, PidM.v | messages of exceptions |
| model.py | CompileM.v, ContextM.v, TypeM.v, BuildM.v, DepictM.v, DepsM.v, DownloadM.v, FolderM.v, MDiffM.v, PrintM.v, WidthM.v, XPathM.v, CompatM.v, DeviceM.v | reading and writing XML files; pyang itself |
| manager.py | DeviceM.v, ExecM.v, LoadableM.v, TagM.v, FolderM.v, FilterM.v, CompatM.v, OwnerM.v, ReplyM.v | `connect`, thin wrappers |
| runningconfig.py | RunningM.v, RunEqM.v, RunDelM.v | thin properties |
| __init__.py | CompileM.v, ExecM.v (the patched functions they use), ParseM.v, ReplyM.v | the printing helpers; the tokenizer of pyang |
| errors.py | exceptions are the constructors of `exn` in Base.v | messages |

Outside the code, and so arguments of the model or inputs of arbitrary value: lxml's parsing
and serialisation, ncclient, pyang's validation, the network, the file system, the random
generator, logging. XPath is specified for the simple paths the code writes (XPathSpec.v).
lxml's `find` is modelled for the path forms the code uses. XmlM.v has the trees and the
schema nodes that all of these share; ExampleM.v has example data only.

## Trusted base

- Coq's kernel (8.16.1).
- The transcription of the Python text into the `*M.v` files, with the simplifications in
  their comments.
- The specifications in `*Spec.v`, which give the theorems their meaning.
- Facts about libraries that the transcription uses: iterating over the children of an lxml
  element while removing the current child visits each child; `lru_cache` keeps
  the most recently used entries and no exceptions; `SubElement` declares namespaces that are not in
  scope; ElementPath reads `p:n` with the given map, a bare name in the default namespace
  of that map, and raises SyntaxError for an unknown prefix; dictionaries keep insertion
  order; `sort` is stable; pyang gives "unknown" for a missing revision; each request to a
  device ends.
- Axioms: none, see below. (`coqchk` over all loaded libraries also lists seven parameters of
  `Coq.ssr.ssrunder`, which the standard library declares and no theorem here uses.)

## Print Assumptions

Output of `Print Assumptions` under each property theorem. Every one is "Closed under the
global context": no axiom, neither of the standard library nor of this development.

- `PropsAgain.v` (4, all closed): C97_again, C97_refused, C97_options, C97_quote_refuted
- `PropsAlike.v` (11, all closed): C84_alike, C84_compare, C84_new, C84_edit, C84_sum, C84_apply, C84_delta, C84_delta_refuted, C84_step, C84_rollback, C84_replay
- `PropsBlank.v` (8, all closed): C64_equals, C64_space_refuted, C64_close_refuted, C64_open_refuted, C64_late_partial, C64_late, C64_differ_refuted, C64_self_refuted
- `PropsBuild.v` (7, all closed): C80_history_partial, C80_alone_partial, C80_again, C80_identities_refuted, C80_edit_refuted, C80_dependencies_refuted, C80_only_files
- `PropsCache.v` (5, all closed): C87_answers_partial, C87_plain, C87_meaning, C87_text_refuted, C87_recent
- `PropsCompare.v` (12, all closed): C01_eq_is_semantic, C02_le_is_containment, C02_le_partial_order, C03_operators_agree, C03_eq_ne, C04_bool, C04_bool_returns, C14_add_rejects_ambiguous, C14_sub_rejects_ambiguous_partial, C14_compare_rejects_ambiguous, C14_never_equal, C14_sub_rejects_ambiguous_refuted
- `PropsCompat.v` (11, all closed): C71_sound, C71_complete, C71_symmetric, C71_same_device, C71_guarded, C71_schema, C71_compare, C71_config, C71_round_trip_partial, C71_eq_unchecked_refuted, C71_keys_refuted
- `PropsCompile.v` (12, all closed): C47_newest, C47_undated, C48_listed_partial, C48_sound, C48_order_refuted, C48_import_refuted, C48_second_base_refuted, C49_kept_partial, C49_one_reading, C49_refuted, C56_copied_partial, C56_comment_refuted
- `PropsContext.v` (8, all closed): C82_sorted, C82_pruned, C82_read, C82_undated_refuted, C82_reset, C83_page_partial, C83_break_refuted, C83_first_refuted
- `PropsDefNs.v` (4, all closed): C89_text, C89_identity, C89_instance_partial, C89_instance_refuted
- `PropsDefault.v` (5, all closed): C92_in_use, C92_order, C92_marks, C92_containers, C92_default_refuted
- `PropsDelta.v` (22, all closed): C05_round_trip_partial, C05_round_trip_refuted, C05_unnameable_refuted, C06_every_preference_partial, C06_root_replace_refuted, C07_replace_types_partial, C07_replace_top_partial, C07_switch_refuted, C08_undo_partial, C08_undo_refuted, C08_options_lost, C09_equal_configs_partial, C09_no_node, C09_unnameable_refuted, C09_no_text_refuted, C09_bool, C10_user_order_partial, C10_one_cut, C10_replay, C10_user_order_refuted, C10_swap_append_refuted, C11_case_switch_refuted
- `PropsDepict.v` (7, all closed): C68_mirrors_partial, C68_compiles, C68_attributes, C68_action_refuted, C68_access, C68_key_lines_refuted, C68_extension_raises
- `PropsDeps.v` (16, all closed): C74_one_entry, C74_imports, C74_depends, C74_required, C74_inverse, C74_include_refuted, C74_namespaces, C74_roots, C74_records, C74_update, C75_threads, C75_ends, C75_order, C75_lost_refuted, C75_dies_refuted, C75_twice_refuted
- `PropsDevice.v` (9, all closed): C43_cache_partial, C43_answer_partial, C43_load, C43_shared_root_refuted, C44_last_scan_partial, C44_stays, C44_refuted, C65_found_partial, C65_choice_refuted
- `PropsDownload.v` (19, all closed): C50_ends, C50_returns, C50_served, C50_final, C51_closed, C51_only, C51_exact, C52_refuted, C52_workers_partial, C53_refuted, C53_ends, C53_returns_partial, C53_once, C54_changed_back_refuted, C54_force_refuted, C54_same_device_partial, C54_first_partial, C55_refuted, C55_retried_partial
- `PropsEdit.v` (15, all closed): C12_merge, C12_config_partial, C12_leaf_list_refuted, C13_errors, C13_never_succeeds, C13_effect, C13_replace, C13_remove_missing, C13_unknown_insert_refuted, C13_other_type_refuted, C57_no_markers, C57_config, C57_delta, C59_position, C59_untouched
- `PropsExec.v` (14, all closed): C72_get, C72_get_config, C72_module, C72_edit, C72_name, C72_edit_sent, C72_passes, C72_carries, C72_keyword_config_refuted, C72_positional_target_refuted, C72_order_refuted, C72_format_refuted, C72_notification_refuted, C72_choice_refuted
- `PropsFind.v` (5, all closed): C91_found, C91_times, C91_once_partial, C91_once_refuted, C91_attribute_refuted
- `PropsHeap.v` (11, all closed): C25_one_call, C25_from_exact, C25_history_partial, C25_answers, C25_answers_careful_partial, C25_answers_refuted, C25_deprecated_refuted, C25_delta_refuted, C25_unchecked_refuted, C25_extract_refuted, C25_filter_refuted
- `PropsIid.v` (8, all closed): C64_kept_partial, C64_refused, C64_merge_partial, C64_same_partial, C64_one_meaning, C64_dot_refuted, C64_position_refuted, C64_twice_refuted
- `PropsJoin.v` (5, all closed): C12_order, C12_absorbs, C06_root_sum, C06_all_options, C07_marks_ignored
- `PropsKeyNs.v` (7, all closed): C76_finds_partial, C76_written, C76_read, C76_exact, C76_error, C76_simplified, C76_refuted
- `PropsLayout.v` (8, all closed): C96_compare, C96_built, C96_delta, C96_sum, C96_refs, C96_round_trip, C96_lists_refuted, C96_named_refuted
- `PropsLoadable.v` (9, all closed): C73_schemas, C73_order, C73_replies, C73_nameless_refuted, C73_kept, C73_library_refuted, C73_cut_refuted, C73_twice_refuted, C73_caps_sound
- `PropsMDiff.v` (13, all closed): C45_empty_iff_equal, C45_itself, C45_succeeds, C46_marked_added, C46_marked_deleted_partial, C46_marked_modified, C46_added_partial, C46_deleted_partial, C46_modified_partial, C46_empty_container_refuted, C46_rpc_refuted, C46_attribute_refuted, C46_became_leaf_refuted
- `PropsMark.v` (6, all closed): C77_marks, C77_ignored, C77_sum, C77_round_trip_partial, C77_no_operation, C77_read_refuted
- `PropsMention.v` (4, all closed): C94_only, C94_new, C94_gone, C94_refuted
- `PropsOpaque.v` (5, all closed): C95_or, C95_delta, C95_sum, C95_refuted_delta, C95_refuted_sum
- `PropsOper.v` (19, all closed): C78_sum_partial, C78_undo_partial, C78_one_device, C78_negation, C78_sum_kinds_partial, C78_difference_kinds, C78_delta_sum_refuted, C78_compare, C78_asks, C78_unchecked_refuted, C78_options, C78_arguments, C78_assigned, C78_type_refuted, C78_other_type, C78_delta_argument, C78_delta_leads_partial, C78_bare_refuted, C78_bare
- `PropsOps.v` (3, all closed): C15_operations, C15_delta_total, C58_keys
- `PropsOwner.v` (9, all closed): C98_name, C98_missing, C98_state, C98_schema_partial, C98_schema_refuted, C98_reload_refuted, C98_augment_refuted, C98_choice_refuted, C98_loaded
- `PropsParse.v` (9, all closed): C81_grammar, C81_unambiguous, C81_ends, C81_places_partial, C81_places_refuted, C81_version, C81_comments_refuted, C81_label, C81_label_refuted
- `PropsPid.v` (4, all closed): C90_one_partial, C90_exact, C90_texts, C90_lost_refuted
- `PropsPrint.v` (17, all closed): C69_url, C69_to_prefix, C69_to_url, C69_back_partial, C69_unknown, C69_dot_refuted, C69_twice_refuted, C70_page, C70_label, C70_tail, C70_joins, C70_read_partial, C70_prints, C70_compiled_prints, C70_dot_refuted, C70_compare_prints, C70_compare_page
- `PropsPrune.v` (23, all closed): C19_status, C19_keys_partial, C19_attributes_partial, C19_accepts, C19_removes, C19_leaf_attribute_refuted, C19_obsolete_key_refuted, C20_filter, C20_nothing_selected, C20_scalar_refuted, C21_extract, C21_docstring_refuted, C22_reorder, C22_total, C22_two, C63_reordered_delta_refuted, C63_reordered_delta_fails_refuted, C23_setter_partial, C23_constructor_refuted, C23_seed_without_depth_refuted, C24_marked, C24_delta, C24_loop
- `PropsRef.v` (10, all closed): C40_same, C40_merge, C40_meaningless, C40_plain, C40_peers, C40_keys_refuted, C41_cuts, C41_pieces, C42_found_partial, C42_pair_at_end_refuted
- `PropsRefs.v` (4, all closed): C88_equal_partial, C88_prefixes_partial, C88_form, C88_keys_refuted
- `PropsReply.v` (3, all closed): C100_paths_partial, C100_unscanned_refuted, C100_other_refuted
- `PropsRun.v` (56, all closed): C26_self_exact, C26_self_distinct, C26_identical_exact, C26_identical_partial, C26_clients_refuted, C26_identical_refuted, C27_no_diff_same, C27_texts_refuted, C28_edit_script, C28_projections, C28_texts, C28_same_lines, C29_parse_text, C29_render, C29_tidy, C30_no_duplicates, C30_all_kept, C30_once, C30_order, C31_prune_negative_partial, C31_subset, C31_sections, C31_words_refuted, C32_prune_positive_partial, C32_subset, C32_sections, C32_words_refuted, C33_undo_no, C33_undo, C33_do, C34_orderless_moves_partial, C34_which_lines, C34_returns, C34_duplicates_refuted, C35_orderless, C35_no_difference_exact, C35_no_difference_partial, C35_crossing_refuted, C36_all_kept, C36_which_lines, C36_returns, C36_split, C36_untouched, C36_full_split_refuted, C60_added_partial, C60_section_partial, C60_overwritable, C60_removed_partial, C60_added_below_partial, C60_section_below_partial, C60_removed_below_partial, C60_sign_refuted, C60_added_refuted, C61_never_raises, C61_deletions, C62_printed
- `PropsRunDev.v` (7, all closed): C85_forth_partial, C85_back_partial, C85_one_reading, C85_names_refuted, C85_addresses_refuted, C85_secondary_refuted, C85_negated_refuted
- `PropsRunEq.v` (6, all closed): C86_equal, C86_never_raises, C86_same_partial, C86_empty, C86_section_refuted, C86_reverse_refuted
- `PropsServer.v` (5, all closed): C16_server_reaches_partial, C16_server_reaches_remove_partial, C16_nested_choice_refuted, C16_replace_type_refuted, C16_root_replace_refuted
- `PropsShuffle.v` (3, all closed): C63_no_sequence_partial, C63_kept_partial, C63_same_sum_partial
- `PropsSum.v` (10, all closed): C05_exactly, C05_landing, C06_exactly, C07_exactly, C10_exactly, C10_whole, C11_stays_exactly, C11_no_switch_reached, C08_exactly, C08_one_way_refuted
- `PropsTag.v` (13, all closed): C37_there_and_back_partial, C37_back_and_there_partial, C37_both_succeed_partial, C37_split, C37_notations, C37_built_in, C37_builtin_refuted, C38_exact, C38_refuses, C39_own_prefix_partial, C39_same_prefix_refuted, C39_builtin_refuted, C39_numbered_refuted
- `PropsTight.v` (6, all closed): C25_compare, C46_attributes, C67_absolute, C68_annotations, C68_data, C72_binds
- `PropsTrim.v` (8, all closed): C17_trim_idempotent, C17_config_of_config, C18_trim_partial, C18_trim_returns, C18_keeps, C18_keys_stay, C18_key_default_refuted, C18_exact
- `PropsType.v` (6, all closed): C79_values_partial, C79_leaf_partial, C79_leafref_partial, C79_restricted, C79_restricted_refuted, C79_bar_refuted
- `PropsVocab.v` (3, all closed): C93_marks, C93_refuted, C93_all
- `PropsWidth.v` (4, all closed): C99_fresh_partial, C99_again, C99_stale_refuted, C99_width
- `PropsXPath.v` (13, all closed): C66_selects_partial, C66_selects_all_partial, C66_namespaces, C66_schema_paths_differ, C66_ytool_paths_differ, C66_quote_refuted, C66_empty_refuted, C66_ytool_refuted, C67_schema_node, C67_schema_node_returns, C67_config_node_partial, C67_in_list_refuted, C67_in_choice_refuted
