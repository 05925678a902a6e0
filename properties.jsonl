{"id": "C01", "title": "Config equality is semantic equality", "statement": "For any two validated configs c1 and c2 of one device, c1 == c2 is True exactly when both contain the same data instances (every container, list entry identified by its keys, leaf-list value, leaf) with the same values and, under every node, the entries of each user-ordered list or leaf-list appear in the same order. The order of all other siblings does not matter.", "quantifier": "all schemas, all pairs of valid config trees of any depth and width", "why_tests_cant": "Equality is recursive over unbounded trees; tests compare a handful of literals and cannot exclude a tree shape on which sibling order or a missing node is overlooked.", "anchors": ["src/ncdiff/calculator.py:BaseCalculator.eq", "src/ncdiff/calculator.py:BaseCalculator._node_le", "src/ncdiff/calculator.py:BaseCalculator._pair_children", "src/ncdiff/config.py:Config.__eq__"]}
{"id": "C02", "title": "<= is a partial order: containment", "statement": "On validated configs, c1 <= c2 is True exactly when every data instance of c1 is in c2 with the same value and every user-ordered sequence of c1 is a subsequence of the one of c2. Hence <= is reflexive, transitive, and c1 <= c2 and c2 <= c1 together mean c1 == c2.", "quantifier": "all schemas, all triples of valid configs", "why_tests_cant": "Transitivity and antisymmetry range over triples of unbounded trees.", "anchors": ["src/ncdiff/calculator.py:BaseCalculator.le", "src/ncdiff/calculator.py:BaseCalculator._node_le", "src/ncdiff/config.py:Config.__le__"]}
{"id": "C03", "title": "The six comparison operators agree with each other", "statement": "Whenever the comparisons return (do not raise), c1 == c2 iff c1 <= c2 and c1 >= c2; c1 != c2 iff not c1 == c2; c1 < c2 iff c1 <= c2 and not c1 >= c2; c1 > c2 iff c2 < c1; and c1 == c2 gives the same answer as c2 == c1.", "quantifier": "all pairs of trees, valid or not", "why_tests_cant": "A consistency law over all pairs; each operator short-circuits differently so a single diverging input is enough to break it.", "anchors": ["src/ncdiff/calculator.py:BaseCalculator.le", "src/ncdiff/calculator.py:BaseCalculator.lt", "src/ncdiff/calculator.py:BaseCalculator.ge", "src/ncdiff/calculator.py:BaseCalculator.gt", "src/ncdiff/calculator.py:BaseCalculator.eq", "src/ncdiff/calculator.py:BaseCalculator.ne", "src/ncdiff/config.py:Config.__eq__", "src/ncdiff/config.py:Config.__lt__"]}
{"id": "C04", "title": "bool(config) is False exactly for the empty config", "statement": "bool(c) is True iff the config has at least one top-level node.", "quantifier": "all configs", "why_tests_cant": "Must hold for every content, and is implemented through the recursive comparison.", "anchors": ["src/ncdiff/config.py:Config.__bool__"]}
{"id": "C05", "title": "Applying a delta yields the destination", "statement": "For configs src and dst of one device, src + (dst - src) == dst with the default options.", "quantifier": "all schemas, all pairs of valid configs", "why_tests_cant": "This is the headline guarantee of the package. It quantifies over pairs of unbounded trees and the interplay of two separate recursive algorithms.", "anchors": ["src/ncdiff/netconf.py:NetconfCalculator.sub", "src/ncdiff/netconf.py:NetconfCalculator.node_sub", "src/ncdiff/netconf.py:NetconfCalculator.add", "src/ncdiff/netconf.py:NetconfCalculator.node_add", "src/ncdiff/config.py:Config.__add__", "src/ncdiff/config.py:Config.__sub__", "src/ncdiff/config.py:ConfigDelta"]}
{"id": "C06", "title": "Delta application is right under every preference", "statement": "For every legal combination of preferred_create, preferred_replace and preferred_delete, applying the resulting delta to src yields a config equal to dst.", "quantifier": "all option combinations, all schemas, all pairs of valid configs", "why_tests_cant": "27 option combinations times unbounded pairs of trees.", "anchors": ["src/ncdiff/netconf.py:NetconfCalculator.__init__", "src/ncdiff/netconf.py:NetconfCalculator.node_sub", "src/ncdiff/netconf.py:NetconfCalculator.set_create_operation", "src/ncdiff/netconf.py:NetconfCalculator.set_delete_operation"]}
{"id": "C07", "title": "Replace-type deltas are right at every depth", "statement": "With diff_type='replace' or 'minimum-replace' and any replace_depth, applying the delta to src yields a config equal to dst.", "quantifier": "all replace depths, all schemas, all pairs of valid configs", "why_tests_cant": "The depth is an unbounded integer and the trees are unbounded.", "anchors": ["src/ncdiff/netconf.py:NetconfCalculator.sub", "src/ncdiff/netconf.py:NetconfCalculator.get_config_replace", "src/ncdiff/netconf.py:NetconfCalculator.add_attribute_at_depth"]}
{"id": "C08", "title": "A delta can be undone", "statement": "For delta = dst - src: dst - delta == src, and dst + (-delta) == src; -(-delta) has the endpoints of delta.", "quantifier": "all pairs of valid configs", "why_tests_cant": "Same unbounded domain as C05, composed with negation.", "anchors": ["src/ncdiff/config.py:ConfigDelta.__neg__", "src/ncdiff/config.py:ConfigDelta.__radd__", "src/ncdiff/config.py:Config.__sub__"]}
{"id": "C09", "title": "The delta between equal configs changes nothing", "statement": "If src == dst then the delta contains no node at all unless a user-ordered list or leaf-list is present, and applying it to src yields a config equal to src.", "quantifier": "all pairs of equal valid configs, including ones whose sibling order differs", "why_tests_cant": "Equality is up to sibling order so the pairs are not literally identical trees.", "anchors": ["src/ncdiff/netconf.py:NetconfCalculator.node_sub"]}
{"id": "C10", "title": "User-ordered entries end up in the destination order", "statement": "After applying dst - src to src, entries of every user-ordered list or leaf-list appear in the order they have in dst, for any reordering, insertion and deletion.", "quantifier": "all permutations, insertions and deletions of sequences of any length", "why_tests_cant": "Involves all permutations of sequences of any length; the result depends on the order in which moves are replayed.", "anchors": ["src/ncdiff/netconf.py:NetconfCalculator._node_add_with_peer_list", "src/ncdiff/netconf.py:NetconfCalculator._node_add_with_peer_leaflist", "src/ncdiff/netconf.py:NetconfCalculator._node_add_without_peer_list", "src/ncdiff/netconf.py:NetconfCalculator.node_sub"]}
{"id": "C11", "title": "A delta that switches a choice case transforms the config", "statement": "If src uses one case of a choice and dst another, applying dst - src to src yields a config equal to dst (nodes of the old case are gone).", "quantifier": "all schemas with choices, all pairs of valid configs", "why_tests_cant": "Depends on which cases are populated in unbounded trees; involves cooperation of delta computation and application.", "anchors": ["src/ncdiff/netconf.py:NetconfCalculator.node_sub", "src/ncdiff/netconf.py:NetconfCalculator.node_add"]}
{"id": "C12", "title": "Merging two configs keeps the second and fills in from the first", "statement": "For valid configs c1 and c2 that do not fill two cases of one choice, c1 + c2 contains an instance exactly if c1 or c2 contains it, with the value of c2 where c2 has it and the value of c1 elsewhere.", "quantifier": "all pairs of valid configs, all instance paths", "why_tests_cant": "Pointwise law over all paths of unbounded trees.", "anchors": ["src/ncdiff/netconf.py:NetconfCalculator.node_add", "src/ncdiff/config.py:Config.__add__"]}
{"id": "C13", "title": "Edit operations follow RFC 6241 error rules", "statement": "When a delta is applied: operation=delete on a missing node raises ConfigDeltaError, operation=create on an existing node raises ConfigDeltaError, an unknown operation raises ConfigDeltaError, operation=remove on a missing node is a no-op, and replace makes the node exactly the given one.", "quantifier": "all configs, deltas and positions in the tree", "why_tests_cant": "Must hold at every position of unbounded trees and for every node type.", "anchors": ["src/ncdiff/netconf.py:NetconfCalculator.node_add", "src/ncdiff/netconf.py:NetconfCalculator._node_add_with_peer_leaf", "src/ncdiff/netconf.py:NetconfCalculator._node_add_with_peer_container"]}
{"id": "C14", "title": "Ambiguous data is rejected", "statement": "If some node of a config contains two entries with the same identity (two leaves of one name, two equal leaf-list values, two list entries with equal keys) or a list entry without exactly one of each key, comparing, adding or subtracting that node raises an error and never returns a wrong answer.", "quantifier": "all trees with a duplicate or a missing key at a compared node", "why_tests_cant": "The duplicates can be anywhere among any number of siblings.", "anchors": ["src/ncdiff/calculator.py:BaseCalculator._pair_children", "src/ncdiff/calculator.py:BaseCalculator._group_kids"]}
{"id": "C15", "title": "Deltas delete only what exists and create only what is missing", "statement": "In dst - src, every node marked delete/remove exists in src and not in dst, every node marked create does not exist in src and exists in dst; a RFC 6241 server holding src therefore accepts every operation.", "quantifier": "all pairs of valid configs, all options, all nodes of the delta", "why_tests_cant": "Universal over every node of the delta of unbounded configs.", "anchors": ["src/ncdiff/netconf.py:NetconfCalculator.node_sub", "src/ncdiff/netconf.py:NetconfCalculator.set_create_operation", "src/ncdiff/netconf.py:NetconfCalculator.set_delete_operation"]}
{"id": "C16", "title": "A device that follows RFC 6241/7950 reaches the destination", "statement": "A server which holds src and executes dst - src as an edit-config in document order (create/merge/replace/delete, insert first/after, case switching as in RFC 7950 section 7.9) ends with dst, including order of user-ordered entries.", "quantifier": "all schemas, all pairs of valid configs", "why_tests_cant": "Needs the semantics of the server and unbounded pairs of configs.", "anchors": ["src/ncdiff/netconf.py:NetconfCalculator.node_sub", "src/ncdiff/config.py:ConfigDelta.nc"]}
{"id": "C17", "title": "Trimming defaults is idempotent", "statement": "Building a Config from an already built Config's content changes nothing: trimming defaults twice equals trimming once.", "quantifier": "all schemas and trees", "why_tests_cant": "Removing nodes bottom-up while iterating can expose new removable nodes; must be checked for all nestings.", "anchors": ["src/ncdiff/config.py:Config._trim_defaults", "src/ncdiff/config.py:Config.__init__"]}
{"id": "C18", "title": "Trimming removes only defaults and empty nodes", "statement": "Every leaf removed by trimming has the default value of its schema, every leaf-list is removed only if its values are exactly the defaults, and every other leaf keeps its value; list keys are never removed.", "quantifier": "all schemas and trees, all paths", "why_tests_cant": "Pointwise over all paths of unbounded trees.", "anchors": ["src/ncdiff/config.py:Config._trim_defaults"]}
{"id": "C19", "title": "Validation accepts only well-formed configs", "statement": "If a Config is built with validation, then in the result every list entry has all its keys, no node carries an edit operation attribute, no obsolete node is left, and no empty non-presence container is left.", "quantifier": "all schemas and input trees", "why_tests_cant": "Must hold for every position in every tree.", "anchors": ["src/ncdiff/config.py:Config._validate_node"]}
{"id": "C20", "title": "filter() keeps exactly the selected subtrees", "statement": "config.filter(xpath) contains a node iff the node was selected, is below a selected node, is an ancestor of a selected node, or is a key of a list entry that is such an ancestor; every kept node is unchanged.", "quantifier": "all configs, all selections", "why_tests_cant": "All subsets of nodes of unbounded trees.", "anchors": ["src/ncdiff/config.py:Config.filter", "src/ncdiff/config.py:Config._node_filter"]}
{"id": "C21", "title": "extract_config leaves exactly the writable data", "statement": "extract_config drops every node whose schema is read-only, with everything below it, and keeps all other nodes.", "quantifier": "all replies and schemas", "why_tests_cant": "All positions of unbounded trees.", "anchors": ["src/ncdiff/manager.py:ModelDevice.extract_config"]}
{"id": "C22", "title": "Random reordering keeps content and key position", "statement": "For any seed and depth, the reordered delta contains the same nodes; at every node the leading key leaves stay first and in place.", "quantifier": "all trees, all depths, all random draws", "why_tests_cant": "All permutations drawn by the random generator.", "anchors": ["src/ncdiff/config.py:ConfigDelta.reorder", "src/ncdiff/config.py:ConfigDelta.reorder_children", "src/ncdiff/config.py:ConfigDelta.nc"]}
{"id": "C23", "title": "random_depth without random_seed still randomizes", "statement": "As documented, if random_depth is set and random_seed is None a seed is generated automatically, so the delta is reordered.", "quantifier": "all ways of setting the two options", "why_tests_cant": "Depends on the path (constructor or property setter) through which options are set; needs the state after any sequence of assignments.", "anchors": ["src/ncdiff/config.py:ConfigDelta.__init__", "src/ncdiff/config.py:ConfigDelta.random_seed", "src/ncdiff/config.py:ConfigDelta.random_depth"]}
{"id": "C24", "title": "The replace marker is put on exactly one level", "statement": "With diff_type='minimum-replace' and no replace_xpath, the marker operation='replace' is put on every node at depth replace_depth+1 and on no other node.", "quantifier": "all trees and depths", "why_tests_cant": "Breadth-first traversal over unbounded trees.", "anchors": ["src/ncdiff/netconf.py:NetconfCalculator.add_attribute_at_depth", "src/ncdiff/netconf.py:NetconfCalculator.sub"]}
{"id": "C25", "title": "Operands are never changed", "statement": "Building a Config from another Config, comparing, adding and subtracting never change the configs involved.", "quantifier": "all sequences of API calls on a set of configs", "why_tests_cant": "Aliasing: two Config objects can share one tree. Needs reasoning about any history of calls.", "anchors": ["src/ncdiff/config.py:Config.__init__", "src/ncdiff/config.py:Config.__add__", "src/ncdiff/config.py:ConfigDelta.__init__"]}
{"id": "C26", "title": "Identical running configs have no diff", "statement": "RunningConfigDiff(x, x) is false and prints nothing.", "quantifier": "all running configs", "why_tests_cant": "All texts of any number of lines and nesting.", "anchors": ["src/ncdiff/runningconfig.py:ListDiff.compare", "src/ncdiff/runningconfig.py:RunningConfigDiff.__bool__"]}
{"id": "C27", "title": "No diff means same running config", "statement": "If the diff of two parsed running configs is empty then both have the same lines in the same nesting and order.", "quantifier": "all pairs of parsed running configs", "why_tests_cant": "All pairs of unbounded trees of lines.", "anchors": ["src/ncdiff/runningconfig.py:ListDiff.compare", "src/ncdiff/runningconfig.py:RunningConfigDiff.get_diff"]}
{"id": "C28", "title": "The running diff is a faithful edit script", "statement": "At every level, the diff before context is hidden lists the lines so that dropping + lines gives running1 and dropping - lines gives running2; every - line reported is a line of running1, every + line a line of running2.", "quantifier": "all pairs of parsed running configs, all nesting levels", "why_tests_cant": "All pairs of unbounded trees of lines.", "anchors": ["src/ncdiff/runningconfig.py:ListDiff.compare"]}
{"id": "C29", "title": "Indented text is parsed back to the same tree", "statement": "Rendering a tree of config lines with two-space indentation and parsing it again gives the same tree.", "quantifier": "all trees of ordinary config lines", "why_tests_cant": "Round trip over trees of unbounded depth and width.", "anchors": ["src/ncdiff/runningconfig.py:RunningConfigDiff.config2list", "src/ncdiff/runningconfig.py:RunningConfigDiff.list2config"]}
{"id": "C30", "title": "Duplicate CLI commands are emitted once", "statement": "In the generated CLI no leaf command occurs twice at one level, and every command that was generated still occurs, in order of first occurrence.", "quantifier": "all command lists", "why_tests_cant": "All lists of commands.", "anchors": ["src/ncdiff/runningconfig.py:RunningConfigDiff.remove_duplicate_cammands"]}
{"id": "C31", "title": "Pruning negative commands keeps every removal", "statement": "After pruning unnecessary negative commands, every line that was to be removed is still removed, by its own 'no' command or by a 'no' command that names a leading sequence of its words.", "quantifier": "all lists of commands", "why_tests_cant": "All combinations of commands with prefix relations.", "anchors": ["src/ncdiff/runningconfig.py:RunningConfigDiff.remove_unnecessary_negative_commands"]}
{"id": "C32", "title": "Pruning positive commands keeps every addition", "statement": "After pruning unnecessary positive commands, every line that was to be added is still added, by its own command or by one that extends its words.", "quantifier": "all lists of commands", "why_tests_cant": "All combinations of commands with prefix relations.", "anchors": ["src/ncdiff/runningconfig.py:RunningConfigDiff.remove_unnecessary_positive_commands"]}
{"id": "C33", "title": "Negating a command twice gives it back", "statement": "The command generated to undo a line 'no X' is X; to undo a line X it is 'no X' or its documented short form, which is a leading part of 'no X'.", "quantifier": "all command lines", "why_tests_cant": "All strings.", "anchors": ["src/ncdiff/runningconfig.py:RunningConfigDiff.handle_command"]}
{"id": "C34", "title": "Orderless handling only reorders", "statement": "Before the diff, lines whose order does not matter are moved; the moved list of lines has exactly the same lines as before, each the same number of times, and lines whose order matters keep their relative order.", "quantifier": "all pairs of line lists, all sets of orderless patterns", "why_tests_cant": "All permutations and anchor positions.", "anchors": ["src/ncdiff/runningconfig.py:RunningConfigDiff.handle_orderless"]}
{"id": "C35", "title": "Reordering orderless lines is not a difference", "statement": "If two running configs have no duplicate lines at a level and differ only in the position of orderless lines, the diff is empty.", "quantifier": "all permutations of orderless lines", "why_tests_cant": "All permutations of lists of any length.", "anchors": ["src/ncdiff/runningconfig.py:RunningConfigDiff.handle_orderless", "src/ncdiff/runningconfig.py:RunningConfigDiff.get_diff"]}
{"id": "C36", "title": "Sibling sections are split without loss", "statement": "Splitting sibling sections (for example address-family under router) keeps every command, only regrouping them.", "quantifier": "all CLI trees", "why_tests_cant": "All nested lists of commands.", "anchors": ["src/ncdiff/runningconfig.py:RunningConfigDiff.handle_sibling_cammands"]}
{"id": "C37", "title": "Tag notations convert back and forth", "statement": "Converting a node tag from URL notation to prefix or name notation and back with the same default namespace returns the original tag and the same default namespace.", "quantifier": "all tags of loaded namespaces, all notations", "why_tests_cant": "All tags and all 3x3 notations with all defaults.", "anchors": ["src/ncdiff/manager.py:ModelDevice.convert_tag", "src/ncdiff/manager.py:ModelDevice.convert_ns", "src/ncdiff/composer.py:split_tag"]}
{"id": "C38", "title": "Ambiguous namespaces are refused", "statement": "convert_ns returns a value only if exactly one namespace entry has the given name, prefix or URL, and then the value belongs to that entry; otherwise it raises.", "quantifier": "all namespace tables and ids", "why_tests_cant": "All tables.", "anchors": ["src/ncdiff/manager.py:ModelDevice.convert_ns"]}
{"id": "C39", "title": "Namespace prefixes handed to the parser name every namespace", "statement": "The prefix map that the device attaches to a reply maps every namespace URL used in the reply to its own prefix: no two URLs get one prefix.", "quantifier": "all replies and namespace tables", "why_tests_cant": "All combinations of declared prefixes.", "anchors": ["src/ncdiff/manager.py:ModelDevice._get_ns"]}
{"id": "C40", "title": "Identityref values do not depend on the prefix", "statement": "Two identityref leaves with different prefixes bound to the same module compare equal, with different modules compare different, and rewriting a value for another node's prefixes keeps its meaning.", "quantifier": "all prefix bindings and names", "why_tests_cant": "All prefix bindings.", "anchors": ["src/ncdiff/ref.py:IdentityRef", "src/ncdiff/calculator.py:BaseCalculator._parse_text", "src/ncdiff/calculator.py:BaseCalculator._same_text", "src/ncdiff/calculator.py:BaseCalculator._merge_text"]}
{"id": "C41", "title": "Instance-identifier parsing loses no text", "statement": "Cutting an instance-identifier into pieces never loses or changes characters: the pieces always concatenate to the original text.", "quantifier": "all strings, all cut sequences", "why_tests_cant": "All strings.", "anchors": ["src/ncdiff/ref.py:InstanceIdentifier.cut", "src/ncdiff/ref.py:InstanceIdentifier.parse_quote", "src/ncdiff/ref.py:InstanceIdentifier.parse_square_bracket"]}
{"id": "C42", "title": "Quoted literals end at their closing quote", "statement": "In an instance-identifier predicate, a literal in which quotes are doubled is ended by the first quote that is not part of a doubled pair.", "quantifier": "all literals", "why_tests_cant": "All strings with runs of quotes of any length.", "anchors": ["src/ncdiff/ref.py:InstanceIdentifier.parse_quote"]}
{"id": "C43", "title": "The schema lookup cache never changes an answer", "statement": "After any sequence of loading models, reloading models and looking up nodes, a schema lookup gives the answer computed from the currently loaded models.", "quantifier": "all histories of load, reload and lookup", "why_tests_cant": "Histories of unbounded length.", "anchors": ["src/ncdiff/manager.py:ModelDevice.load_model", "src/ncdiff/manager.py:ModelDevice.get_schema_node", "src/ncdiff/manager.py:ModelDevice.roots"]}
{"id": "C44", "title": "The namespace table reflects the last scan", "statement": "After scanning models again, the namespace table used for tag conversion is the one of the new scan.", "quantifier": "all histories of scans and reads", "why_tests_cant": "Histories.", "anchors": ["src/ncdiff/manager.py:ModelDevice.namespaces", "src/ncdiff/manager.py:ModelDevice.scan_models"]}
{"id": "C45", "title": "An empty model diff means equal models", "statement": "bool(ModelDiff(m1, m2)) is False exactly when both models have the same schema nodes with the same attributes, ignoring sibling order.", "quantifier": "all pairs of compiled models", "why_tests_cant": "All pairs of unbounded schema trees.", "anchors": ["src/ncdiff/model.py:ModelDiff.compare_nodes", "src/ncdiff/model.py:ModelDiff.node_equal", "src/ncdiff/model.py:ModelDiff.node_less"]}
{"id": "C46", "title": "added/deleted/modified are exact", "statement": "ModelDiff.added (deleted, modified) is non-empty exactly when some node was added (deleted, modified), and contains only such nodes and their ancestors.", "quantifier": "all pairs of compiled models", "why_tests_cant": "All pairs of unbounded schema trees.", "anchors": ["src/ncdiff/model.py:ModelDiff.trim", "src/ncdiff/model.py:ModelDiff.added", "src/ncdiff/model.py:ModelDiff.compare_nodes"]}
{"id": "C47", "title": "The newest revision is used", "statement": "Among the loaded revisions of a module the one chosen is a revision that exists and no other revision of that module is newer.", "quantifier": "all sets of loaded modules", "why_tests_cant": "All sets.", "anchors": ["src/ncdiff/model.py:CompilerContext._get_latest_revision"]}
{"id": "C48", "title": "Identity values list every derived identity", "statement": "The allowed values shown for an identityref contain every identity derived directly from the base.", "quantifier": "all modules and orders of identities", "why_tests_cant": "All orders in which identities are defined.", "anchors": ["src/ncdiff/model.py:ModelCompiler.compile", "src/ncdiff/model.py:ModelCompiler.type_identityref_values"]}
{"id": "C49", "title": "Compacting a leafref path keeps its meaning", "statement": "The compacted leafref path resolves to the same node as the full path.", "quantifier": "all paths and prefixes", "why_tests_cant": "All paths.", "anchors": ["src/ncdiff/model.py:ModelCompiler.set_leaf_datatype_value"]}
{"id": "C50", "title": "Downloading terminates and serves every queued module under every schedule", "statement": "Whatever the interleaving of the worker threads and whichever downloads fail, the download phase ends and every module put on the queue has been attempted.", "quantifier": "all schedules of any number of workers, all failure patterns, all dependency graphs", "why_tests_cant": "All interleavings.", "anchors": ["src/ncdiff/model.py:ModelDownloader.download_all", "src/ncdiff/model.py:ModelDownloader.download", "src/ncdiff/model.py:DownloadWorker.run"]}
{"id": "C51", "title": "Every dependency is fetched", "statement": "When the download phase ends, every module reachable from the advertised modules through imports and includes of successfully fetched modules has been attempted.", "quantifier": "all schedules and dependency graphs", "why_tests_cant": "All interleavings and graphs.", "anchors": ["src/ncdiff/model.py:ModelDownloader.download_all", "src/ncdiff/model.py:ModelDownloader.download"]}
{"id": "C52", "title": "No module is downloaded twice", "statement": "During one download phase every module is fetched at most once.", "quantifier": "all schedules and dependency graphs", "why_tests_cant": "A check-then-act race shows only under particular interleavings.", "anchors": ["src/ncdiff/model.py:ModelDownloader.download"]}
{"id": "C53", "title": "Loading the compiler context terminates", "statement": "load_context returns under every schedule even if a module cannot be parsed.", "quantifier": "all schedules, all failure patterns", "why_tests_cant": "A worker which dies from an exception leaves the queue unfinished; only some inputs show it.", "anchors": ["src/ncdiff/model.py:CompilerContext.load_context", "src/ncdiff/model.py:ContextWorker.run"]}
{"id": "C54", "title": "An interrupted download is detected", "statement": "If the process is killed at any moment of a download, the next scan with download='check' downloads again unless the previous download had completed.", "quantifier": "all crash points, all histories of scans", "why_tests_cant": "All crash points between file-system steps.", "anchors": ["src/ncdiff/model.py:ModelDownloader.need_download", "src/ncdiff/model.py:ModelDownloader.download_all"]}
{"id": "C55", "title": "A failed download is retried", "statement": "If fetching a module failed, the next scan with download='check' tries again.", "quantifier": "all failure patterns and histories", "why_tests_cant": "Histories.", "anchors": ["src/ncdiff/model.py:ModelDownloader.need_download", "src/ncdiff/model.py:ModelDownloader.download_all"]}
{"id": "C56", "title": "Copying an rpc into an envelope keeps its content", "statement": "The tree appended to the rpc has the same tags, attributes, text and children as the given element.", "quantifier": "all trees", "why_tests_cant": "All trees.", "anchors": ["src/ncdiff/__init__.py:_append", "src/ncdiff/__init__.py:request", "src/ncdiff/__init__.py:_wrap"]}
{"id": "C57", "title": "Results carry no edit markers", "statement": "The config produced by applying any delta has no operation, insert, key or value attribute on any node that came from the delta.", "quantifier": "all configs and deltas, all nodes of the result", "why_tests_cant": "All positions of unbounded trees.", "anchors": ["src/ncdiff/calculator.py:BaseCalculator._del_attrib", "src/ncdiff/netconf.py:NetconfCalculator.node_add"]}
{"id": "C58", "title": "List keys survive in a delta", "statement": "Every list entry in dst - src carries all its keys with the values of the entry it denotes.", "quantifier": "all pairs of valid configs, all options, all list entries of the delta", "why_tests_cant": "All positions of unbounded trees.", "anchors": ["src/ncdiff/netconf.py:NetconfCalculator.node_sub", "src/ncdiff/netconf.py:NetconfCalculator.get_config_replace"]}
{"id": "C59", "title": "Insert positions are obeyed", "statement": "When an edit is applied, an entry of a list or leaf-list ends where its insert attribute (first, last, before or after the entry named by the value or key attribute) puts it, without one it stays where it is or goes to the end, and all other entries keep their order.", "quantifier": "all datastores and edits with at most one entry of that list, at any depth", "why_tests_cant": "All lists, all positions, all attribute combinations.", "anchors": ["src/ncdiff/netconf.py:NetconfCalculator._node_add_without_peer_leaflist", "src/ncdiff/netconf.py:NetconfCalculator._node_add_without_peer_list", "src/ncdiff/netconf.py:NetconfCalculator._node_add_with_peer_leaflist", "src/ncdiff/netconf.py:NetconfCalculator._node_add_with_peer_list"]}
{"id": "C60", "title": "Every line of the running diff gets its command", "statement": "Each line reported as added is configured by the generated CLI, by itself or by a command extending it; each line reported as removed is negated, extended by an added line, or overwritten by an added line of a kind that replaces it.", "quantifier": "all pairs of running configs, all lines of their diff", "why_tests_cant": "All pairs of texts with any number of lines and all interactions of the pruning steps.", "anchors": ["src/ncdiff/runningconfig.py:RunningConfigDiff.list2cli", "src/ncdiff/runningconfig.py:RunningConfigDiff.get_cli"]}
{"id": "C61", "title": "Comparing running configs never raises", "statement": "diff, diff_reverse, cli, cli_reverse, bool and str of RunningConfigDiff return for every pair of texts.", "quantifier": "all pairs of texts", "why_tests_cant": "All texts, however indented.", "anchors": ["src/ncdiff/runningconfig.py:RunningConfigDiff.get_diff", "src/ncdiff/runningconfig.py:RunningConfigDiff.config2list", "src/ncdiff/runningconfig.py:RunningConfigDiff.handle_orderless"]}
{"id": "C62", "title": "The printed running diff is the diff", "statement": "str() of a running config diff has one line per line of the diff, with the sign + or - of the added or removed line it belongs to, and two blanks of indentation per level.", "quantifier": "all pairs of running configs", "why_tests_cant": "All texts and nesting depths.", "anchors": ["src/ncdiff/runningconfig.py:RunningConfigDiff.__str__", "src/ncdiff/runningconfig.py:RunningConfigDiff.list2config", "src/ncdiff/runningconfig.py:RunningConfigDiff.indent"]}
{"id": "C63", "title": "A randomly reordered delta still leads to the destination", "statement": "Applying a delta whose nodes were reordered (random_depth, random_seed) to the source gives the destination, like the delta without reordering.", "quantifier": "all schemas, all pairs of configs, all depths and draws", "why_tests_cant": "the outcome depends on the drawn order and on the position of user-ordered entries", "anchors": ["src/ncdiff/config.py: ConfigDelta.nc, reorder, reorder_children", "src/ncdiff/netconf.py: NetconfCalculator.add"]}
{"id": "C64", "title": "Rewriting an instance-identifier keeps the path it denotes", "statement": "When an instance-identifier written with the prefixes of one node is rewritten for another node, the result denotes the same path of qualified names with the same predicates.", "quantifier": "all instance-identifiers of the YANG grammar and all prefix maps", "why_tests_cant": "All nestings of steps, predicates and quoted text.", "anchors": ["src/ncdiff/ref.py:InstanceIdentifier", "src/ncdiff/ref.py:InstanceIdentifier.parse_element", "src/ncdiff/ref.py:InstanceIdentifier.convert"]}
{"id": "C65", "title": "Every data node of a loaded model can be looked up", "statement": "A data node defined by a loaded model, at any depth and inside any choice, is found by a schema lookup on its path.", "quantifier": "all loaded models, all data nodes, all histories", "why_tests_cant": "All schema shapes and histories.", "anchors": ["src/ncdiff/manager.py:ModelDevice.get_schema_node", "src/ncdiff/manager.py:ModelDevice.roots", "src/ncdiff/model.py:Model.roots", "src/ncdiff/composer.py:Composer.model_name"]}
{"id": "C66", "title": "The XPath of a config node selects that node", "statement": "get_xpath of a config node returns an XPath that selects exactly this node of the config; with instance=False it selects the node and its siblings of the same name. The prefixes are those of Config.ns. Different schema nodes have different paths.", "quantifier": "all namespace tables, all valid configs, all nodes, all prefix notations", "why_tests_cant": "Tests compare a few paths with literal strings and never evaluate them on other configs.", "anchors": ["src/ncdiff/composer.py:Composer.get_xpath", "src/ncdiff/composer.py:Composer.keys", "src/ncdiff/manager.py:ModelDevice.get_xpath"]}
{"id": "C67", "title": "get_statement finds the statement that defines a node", "statement": "get_statement of a config or schema node returns the pyang statement that defines the node, and nothing else.", "quantifier": "all modules whose siblings have different names, all config and schema nodes", "why_tests_cant": "A test looks up single nodes; the lookup depends on the whole path and on the values of list keys on the way.", "anchors": ["src/ncdiff/manager.py:ModelDevice.get_statement", "src/ncdiff/model.py:CompilerContext.get_statement", "src/ncdiff/model.py:CompilerContext.get_child"]}
{"id": "C68", "title": "The schema tree says what the YANG statements say", "statement": "The compiled tree of a module has one node per data, rpc and notification statement, with the children of the statement in order. Tag, type, presence, user order, default, key leaves, status and access of each node are those of the statement; access follows the enclosing rpc input or output, action or notification, else config.", "quantifier": "all modules, all namespace tables", "why_tests_cant": "Tests compile a few modules; nesting and combinations of substatements are unbounded.", "anchors": ["src/ncdiff/model.py:ModelCompiler.depict_a_schema_node", "src/ncdiff/model.py:ModelCompiler.set_access", "src/ncdiff/model.py:ModelCompiler.compile", "src/ncdiff/composer.py:Composer.keys"]}
{"id": "C69", "title": "Names in a model convert back and forth", "statement": "A model knows the URL of its own prefix; url_to_prefix and prefix_to_url are inverse on the modules it knows; a name without a prefix belongs to the model; the name that remains after remove_model_prefix leads back to the same node.", "quantifier": "for all lists of modules with distinct prefixes and URLs, all models, all modules in the list and all node names", "why_tests_cant": "Prefixes and URLs come from the device; a prefix is used as a regular expression, so which pairs of prefixes collide cannot be enumerated.", "anchors": ["src/ncdiff/model.py: Model.__init__, prefix_to_url, url_to_prefix, remove_model_prefix"]}
{"id": "C70", "title": "The print of a model shows the model", "statement": "str(model) and str(ModelDiff) do not raise for trees of known modules; they give one line per node in document order, in the sections data, rpcs, notifications; bars join siblings; flags and marks are those of RFC 8340; two trees with the same print have the same nodes with the same names, marks, types and features.", "quantifier": "for all schema trees of any depth and width, all models and all comparisons of two trees", "why_tests_cant": "The column of each bar depends on all ancestors and on the siblings that follow in the section; that nothing is lost in the text is a statement about all pairs of trees.", "anchors": ["src/ncdiff/model.py: Model.emit_tree, emit_children, get_width, get_depth_str, get_flags_str, get_name_str, get_datatype_str, ModelDiff.emit_children, ModelDiff.get_name_str, ModelDiff.get_diff_str"]}
{"id": "C71", "title": "Configs of two devices are combined only if their schemas agree", "statement": "The compatibility check succeeds exactly when the models used by both operands are loadable and loaded on both devices with the same nodes, prefixes and URLs; it is symmetric; deltas and sums are made only after it. After it the two devices define the same data nodes, the comparison operators answer the same with either schema, and applying the delta between configs of two devices gives the second config.", "quantifier": "for all pairs of devices, all sets of models on them, all configs and deltas", "why_tests_cant": "It is a statement about all pairs of schemas: a test compares a few devices, whereas the claim is that no difference between two models escapes the check.", "anchors": ["src/ncdiff/config.py: ConfigCompatibility, ConfigDelta.__init__, Config.__add__, Config.__sub__, Config.__eq__, Config.roots, Config.models, ConfigDelta.models", "src/ncdiff/model.py: ModelDiff"]}
{"id": "C72", "title": "execute sends what was asked for", "statement": "execute() turns `models=` into a filter that names exactly the roots of those models that can be read (get) or written (get-config), each once, refuses names that are not loaded, and passes every other argument on. edit-config gets the element of a Config, a target that the device can write, and exactly the options given, in the order of RFC 6241.", "quantifier": "for all devices, loaded models, argument lists and keyword arguments, capabilities and edit-config options", "why_tests_cant": "The set of models, roots, access types and option combinations is unbounded; tests use one or two models with one root each and never check the order or the completeness of the request.", "anchors": ["src/ncdiff/manager.py:ModelDevice.execute", "src/ncdiff/__init__.py:_EditConfig.request"]}
{"id": "C73", "title": "models_loadable names the models that the device offers", "statement": "models_loadable lists every model of the device exactly once, from netconf-monitoring if offered, else from the YANG library, else from the capabilities; a way that fails leads to the next one; each request is made at most once and the answer is kept.", "quantifier": "for all capability lists and all replies of the device (exceptions, errors, any tree)", "why_tests_cant": "Tests use one recorded hello and one recorded reply; the ways, failures, numbers of schemas and names are unbounded, and a silently empty or shortened list looks like a device with fewer models.", "anchors": ["src/ncdiff/manager.py:ModelDevice.models_loadable"]}
{"id": "C74", "title": "The dependency record tells exactly what the latest statement of each module imports and includes", "statement": "After any sequence of update_dependencies calls (starting from nothing), the record has exactly one node per module name seen; get_dependencies(m) gives as imports exactly the modules imported by the statement recorded last under the name m, and as depends exactly the modules whose latest statements import or include m; the set that compile loads is imports, depends and m itself; namespaces lists exactly the prefix and namespace of each module statement; the mark 'roots' is present exactly if the module has a data statement not hidden by tailf:hidden; an update fails exactly if an import lacks a prefix.", "quantifier": "all sequences of module and submodule statements with arbitrary substatements, all names", "why_tests_cant": "Re-recording under a name already present, cyclic imports, submodules and hidden data in every combination and order cannot be enumerated; tests use one fixed model directory.", "anchors": ["src/ncdiff/model.py: Context.update_dependencies, CompilerContext.get_dependencies", "src/ncdiff/model.py: ModelCompiler.compile", "src/ncdiff/manager.py: ModelDevice.namespaces"]}
{"id": "C75", "title": "Threads that record dependencies at the same time leave what one thread would have left", "statement": "For any number of worker threads and any interleaving of their steps inside update_dependencies, if the tree of dependencies was made before and the names of the modules differ, then no thread fails, every run ends, and at the end the tree is, up to the order of nodes (which makes no difference to get_dependencies and namespaces), what a single thread would have recorded.", "quantifier": "all numbers of threads, all lists of module statements with distinct names, all schedules", "why_tests_cant": "Tests run one schedule that the interpreter happens to choose; a lost update needs two threads to stand at particular lines.", "anchors": ["src/ncdiff/model.py: DownloadWorker.run, ContextWorker.run", "src/ncdiff/model.py: Context.update_dependencies, Context.load_context", "src/ncdiff/model.py: ModelDownloader.download_all"]}
{"id": "C76", "title": "The key attribute of a user-ordered list entry names the entry before it", "statement": "The predicates that node_sub and get_config_replace write into the key attribute, with prefixes taken from the key nodes of the preceding entry, lead node_add, which reads them with the prefixes of the entry carrying the attribute, to the first entry of that tag that has the same keys as the preceding entry, and to nothing if there is none.", "quantifier": "all lists of keys, all entries, all namespace declarations of the key nodes and of the carrying entry", "why_tests_cant": "Tests use documents in which one element declares the namespace for the whole list; the ways in which two entries may declare prefixes, defaults and several prefixes for one namespace are unbounded.", "anchors": ["src/ncdiff/netconf.py: NetconfCalculator._url_to_prefix", "src/ncdiff/netconf.py: NetconfCalculator.node_sub, get_config_replace", "src/ncdiff/netconf.py: NetconfCalculator._node_add_without_peer_list, _node_add_with_peer_list"]}
{"id": "C77", "title": "replace_xpath marks the selected nodes of the minimal delta and the marks do no harm", "statement": "With diff_type='minimum-replace' and an expression in replace_xpath the delta is the minimal delta in which exactly the selected nodes are marked; a value that is no set of nodes gives an error. The selected nodes are replaced by the receiver and a + (b - a) == b.", "quantifier": "all schemas, all pairs of configs, all preferences, all values of the expression, all sets of nodes that it may select", "why_tests_cant": "Tests look at the delta of one pair for a few expressions; the nodes an expression can select and the attributes a receiver might react to are unbounded.", "anchors": ["src/ncdiff/netconf.py: NetconfCalculator.sub", "src/ncdiff/netconf.py: NetconfCalculator.add_attribute_by_xpath", "src/ncdiff/netconf.py: NetconfCalculator.add_attribute_at_depth", "src/ncdiff/netconf.py: NetconfCalculator.node_add"]}
{"id": "C78", "title": "The operators of configs and deltas obey the laws of addition and refuse what does not go together", "statement": "For configs a and b that may be combined, a + (b - a) and (b - a) + a equal b, b - (b - a) equals a, and -(-d) leads where d leads. A ConfigDelta made from an XML string or an Element in any envelope leads where the Element leads. Operands that do not go together raise TypeError, invalid options raise ValueError, configs of incompatible devices raise ModelIncompatible.", "quantifier": "all devices, all configs, all deltas, all kinds of operands, all option values, all NETCONF envelopes", "why_tests_cant": "Tests combine a few operands; the laws range over all pairs of configs from two devices, and the refusals over all pairs of kinds of operands and all strings as options.", "anchors": ["src/ncdiff/config.py: Config.__add__", "src/ncdiff/config.py: Config.__sub__", "src/ncdiff/config.py: ConfigDelta.__init__", "src/ncdiff/config.py: ConfigDelta.nc", "src/ncdiff/config.py: ConfigDelta.__neg__", "src/ncdiff/config.py: ConfigDelta.__add__", "src/ncdiff/config.py: _cmperror", "src/ncdiff/netconf.py: NetconfCalculator.__init__"]}
{"id": "C79", "title": "The schema lists exactly the values a type admits", "statement": "The attribute 'values' of a leaf in a compiled model lists exactly the names that the type of the leaf admits: boolean, enumeration, identityref, through typedefs, restrictions and unions of any depth; 'datatype' tells the type, the base of an identityref or the path of a leafref, and 'union_member_types' lists the members of a union.", "quantifier": "all types: all nestings of typedefs, unions and restrictions, all names, all identities", "why_tests_cant": "Types nest without bound, and a test compares the values of the few models at hand.", "anchors": ["src/ncdiff/model.py: ModelCompiler.set_leaf_datatype_value", "src/ncdiff/model.py: ModelCompiler.type_values", "src/ncdiff/model.py: ModelCompiler.type_union_values", "src/ncdiff/model.py: ModelCompiler.type_identityref_values"]}
{"id": "C80", "title": "A compiled model depends on the YANG files only", "statement": "Whatever has happened to a folder before (compilations of any modules in any order by any number of compilers, downloads, processes killed while writing), compile(m) gives what a new compiler gives on a folder with the same YANG files and nothing else; and a tree that was given out is given out again until the folder is emptied.", "quantifier": "all histories of a folder, all modules, all orders in which Python lists a set, all YANG files, every behaviour of pyang as a function of the files", "why_tests_cant": "Tests compile each module once in a fresh folder; the state kept in files and in the compiler shows only after long histories.", "anchors": ["src/ncdiff/model.py: ModelCompiler.compile", "src/ncdiff/model.py: ModelCompiler.build_dependencies", "src/ncdiff/model.py: ModelCompiler._read_from_cache", "src/ncdiff/model.py: ModelCompiler._write_to_cache", "src/ncdiff/model.py: ModelCompiler.get_dependencies", "src/ncdiff/model.py: write_xml", "src/ncdiff/model.py: read_xml"]}
{"id": "C81", "title": "The parser reads what the grammar says, and knows where it was", "statement": "The replacement of pyang's _parse_statement reads a text as a statement exactly if the text spells it (keyword, argument, semicolon or block), in one way only; the places it records are those of the keyword and of the closing semicolon or brace, nested as the statements are; YANG 1.1 is switched on exactly if a statement says so.", "quantifier": "all sequences of tokens, all depths, kept and dropped comments", "why_tests_cant": "Statements nest without bound; tests parse the modules at hand and do not look at places.", "anchors": ["src/ncdiff/__init__.py: _parse_statement", "src/ncdiff/__init__.py: Position"]}
{"id": "C82", "title": "One revision of each module is pruned, the one that is read", "statement": "validate_context validates modules before submodules without losing any, prunes exactly one revision of each module, the latest, which is the one get_statement reads; internal_reset lists all files of a module with their revisions.", "quantifier": "all dictionaries of modules, all numbers of revisions", "why_tests_cant": "Tests have one revision of each module.", "anchors": ["src/ncdiff/model.py: CompilerContext.validate_context", "src/ncdiff/model.py: CompilerContext.sort_modules", "src/ncdiff/model.py: CompilerContext.internal_reset"]}
{"id": "C83", "title": "The page of a comparison tells nodes apart", "statement": "ModelDiff.compare gives the same page for two pairs of nodes exactly if they have the same tags, texts and attributes.", "quantifier": "all expressions, all nodes", "why_tests_cant": "Injectivity is a statement about all pairs of nodes.", "anchors": ["src/ncdiff/model.py: ModelDiff.compare"]}
{"id": "C84", "title": "The operators depend on the data of their operands only", "statement": "Operands that compare equal are interchangeable: comparisons give the same answer, building a config, adding configs, applying edits and deltas and computing deltas give equal results or fail on both. So (a + d) - d is a again, and deltas applied one after another to what the sums are (and not to the configs they were computed from) end in the last config.", "quantifier": "all schemas, all trees, all edits with any operations, any number of deltas in turn", "why_tests_cant": "Equal configs can be written in exponentially many ways; every step of the sum and of the delta walks through children in the order in which they are written.", "anchors": ["src/ncdiff/netconf.py: NetconfCalculator.node_add", "src/ncdiff/netconf.py: NetconfCalculator._node_add_without_peer_list", "src/ncdiff/netconf.py: NetconfCalculator._node_add_with_peer_list", "src/ncdiff/config.py: Config.__add__", "src/ncdiff/config.py: Config._trim_defaults", "src/ncdiff/config.py: Config._validate_node", "src/ncdiff/netconf.py: NetconfCalculator.node_sub", "src/ncdiff/netconf.py: NetconfCalculator.get_config_replace"]}
{"id": "C85", "title": "The CLI of a diff takes the device to the other config", "statement": "The commands that RunningConfigDiff.cli gives for two running configs, entered on a device that runs the first one, leave it with the second one; the commands of cli_reverse take it back.", "quantifier": "all pairs of running configs (any number of lines, any nesting), all devices (any relation of which lines a command makes go, and any set of commands that are shown as lines, negated ones included)", "why_tests_cant": "A device is not part of the tests, and pruning, the short forms of negated commands, overwritable commands and sections interact differently for every combination of removed, kept and added lines.", "anchors": ["src/ncdiff/runningconfig.py: RunningConfigDiff.cli", "src/ncdiff/runningconfig.py: RunningConfigDiff.cli_reverse", "src/ncdiff/runningconfig.py: RunningConfigDiff.get_cli", "src/ncdiff/runningconfig.py: RunningConfigDiff.list2cli", "src/ncdiff/runningconfig.py: RunningConfigDiff.remove_unnecessary_negative_commands", "src/ncdiff/runningconfig.py: RunningConfigDiff.handle_command"]}
{"id": "C86", "title": "Running-config diffs compare equal exactly if they are the same diff", "statement": "Two RunningConfigDiff objects compare equal exactly if their diffs have the same lines with the same signs in the same order and nesting; equal diffs have the same CLIs.", "quantifier": "all pairs of pairs of running configs (any number of lines, any nesting)", "why_tests_cant": "__eq__ compares printed texts. That two different diffs never print the same text (signs, indentation and names could be confused) is a statement about all pairs of trees.", "anchors": ["src/ncdiff/runningconfig.py: RunningConfigDiff.__eq__", "src/ncdiff/runningconfig.py: RunningConfigDiff.__str__", "src/ncdiff/runningconfig.py: RunningConfigDiff.list2config", "src/ncdiff/runningconfig.py: RunningConfigDiff.indent"]}
{"id": "C87", "title": "The caches of a calculator change no answer", "statement": "A calculator that is asked any of its six comparisons any number of times gives the answers (and exceptions) that it would give without its caches and with peers looked up by identity; the cache holds the answers of the last 128 different calls.", "quantifier": "all pairs of trees, all sequences of questions, all cache sizes, all histories of calls", "why_tests_cant": "lru_cache keys are element identities and entries are evicted by use: whether a kept text is ever wrong depends on all earlier calls.", "anchors": ["src/ncdiff/calculator.py: BaseCalculator.__attach_per_instance_cache", "src/ncdiff/calculator.py: BaseCalculator._parse_text", "src/ncdiff/calculator.py: BaseCalculator._pair_children", "src/ncdiff/calculator.py: BaseCalculator._get_peers", "src/ncdiff/calculator.py: BaseCalculator._is_peer", "src/ncdiff/calculator.py: BaseCalculator._node_le"]}
{"id": "C88", "title": "Prefixes of identityref and instance-identifier values do not matter when configs are compared", "statement": "Two configs that are the same except for the prefixes and namespace declarations with which their identityref and instance-identifier values are written compare equal, and writing a config with other prefixes changes no comparison with any other config.", "quantifier": "all schema trees, all configs, all namespace declarations at every place, all questions", "why_tests_cant": "the prefixes in scope differ per element and the texts are parsed at several points (pairing, peers, texts) with different schema nodes; tests use one prefix per module.", "anchors": ["src/ncdiff/calculator.py: BaseCalculator._parse_text", "src/ncdiff/calculator.py: BaseCalculator._same_text", "src/ncdiff/calculator.py: BaseCalculator._pair_children", "src/ncdiff/calculator.py: BaseCalculator._node_le", "src/ncdiff/ref.py: IdentityRef.default", "src/ncdiff/ref.py: InstanceIdentifier.default"]}
{"id": "C89", "title": "The default form of a reference can be read with default_ns alone", "statement": "The text that default gives for an identityref or instance-identifier, put in an element whose namespace declarations are default_ns, refers to the same identity or path for a reader that only knows the declarations; default_ns declares nothing else.", "quantifier": "all tables of modules, all namespace declarations, all texts that refer to something, all paths in the notation of RFC 7950", "why_tests_cant": "the dict is filled piece by piece while the text is converted; tests check one identityref and never read the result back.", "anchors": ["src/ncdiff/ref.py: IdentityRef.default_ns", "src/ncdiff/ref.py: IdentityRef.compose_prefixed_id", "src/ncdiff/ref.py: InstanceIdentifier.compose_prefixed_id", "src/ncdiff/ref.py: InstanceIdentifier.convert_str_list"]}
{"id": "C90", "title": "parse_instanceid rewrites the names of an instance-identifier", "statement": "parse_instanceid gives the text of the node with every name converted to the prefixes of the other node (or to module names) and everything else kept in its place.", "quantifier": "all tables of modules, all namespace declarations, all texts", "why_tests_cant": "nothing calls the method and no test covers it.", "anchors": ["src/ncdiff/ref.py: IdentityRef.parse_instanceid"]}
{"id": "C91", "title": "find_by_tags finds the nodes below the given tags", "statement": "find_by_tags gives every node that is reached from the root by the given tags (each tag somewhere below the one before), once and in the order of the document, and add_attribute_by_tags sets the attribute on exactly these nodes.", "quantifier": "all trees, all lists of tags", "why_tests_cant": "nothing calls the methods and no test covers them.", "anchors": ["src/ncdiff/netconf.py: NetconfCalculator.find_by_tags, add_attribute_by_tags"]}
{"id": "C92", "title": "Defaults in use are found and never created", "statement": "default_in_use lists exactly the leaves and leaf-lists whose default is in use once the given node exists, and the default cases of choices, each once and in the order of the document. With preferred_create create, exactly the topmost nodes that are neither non-presence containers nor have a default in use are marked create: no delta creates a non-presence container or a node whose default is in use.", "quantifier": "all schemas, all data trees, all pairs of configs, all options", "why_tests_cant": "the tests look at three nodes of one model; which nodes a server has to hold as defaults depends on nesting of containers, choices and cases in the model.", "anchors": ["src/ncdiff/manager.py: ModelDevice.default_in_use", "src/ncdiff/netconf.py: NetconfDiff.set_create_operation, node_sub"]}
{"id": "C93", "title": "Deltas use the vocabulary of RFC 6241 and RFC 7950", "statement": "Every attribute of every node of a delta is nc:operation, yang:insert, yang:value or yang:key, each at most once. Operations are those the options ask for (merge is never spelled out); insert is first or after, on entries of lists and leaf-lists ordered by the user that are not deleted or removed; value (leaf-lists) and key (lists) are there exactly with insert=after.", "quantifier": "all schemas, all pairs of configs, all options, all nodes of the delta", "why_tests_cant": "the tests compare a few deltas as text; an attribute that a server rejects may arise at any depth, from any mix of options and node types.", "anchors": ["src/ncdiff/netconf.py: NetconfDiff.node_sub, get_config_replace, set_create_operation, set_delete_operation", "src/ncdiff/netconf.py: operation_tag, insert_tag, value_tag, key_tag"]}
{"id": "C94", "title": "A delta mentions all that differs and nothing else", "statement": "Completeness: whatever the destination has and the source has not is in the delta with the same value; whatever the source has and the destination has not is deleted by the delta at the node or above it, is below a node the delta replaces, is an emptied container without presence, or gives way to another case of its choice. Minimality: every node of the delta but the root is in one of the configs only, or they differ there or below, or it is a key leaf or an entry ordered by the user.", "quantifier": "all schemas, all pairs of configs, all options (completeness); preferred_replace=merge and diff_type other than replace (minimality); all paths", "why_tests_cant": "the tests compare a few deltas as text; a node that is left out or mentioned without need may be at any depth, with any mix of node types and options.", "anchors": ["src/ncdiff/netconf.py: NetconfDiff.__sub__, node_sub, get_config_replace"]}
{"id": "C95", "title": "Opaque nodes (anyxml, anydata) in deltas and sums", "statement": "A delta is the one that results from reading opaque nodes as leaves, or its calculation raises ModelError. ModelError is raised only if an opaque node is in both configs below nodes that differ, and with preferred_replace=merge and a diff_type other than replace it is raised exactly then. A sum has exactly the opaque children of its first operand.", "quantifier": "all schemas, all trees and options (first sentence and sums); all pairs of configs whose opaque nodes are texts and whose user-ordered leaf-list entries have a text (where ModelError is raised)", "why_tests_cant": "no test has an anyxml or anydata node; which configs can be compared depends on the equality of everything around the opaque node, at any depth.", "anchors": ["src/ncdiff/netconf.py: NetconfCalculator.node_sub, get_config_replace, node_add, supported_node_type", "src/ncdiff/calculator.py: BaseCalculator._node_le"]}
{"id": "C96", "title": "The text of containers does not matter", "statement": "Trees that differ only in the text of their containers (white space left by layout) compare alike, are built into configs that differ in nothing else or are refused in the same way, have deltas that differ in nothing else with all options, and have sums that differ in nothing else if what is added names the places of list entries by children that are no containers, as all deltas do. Hence a delta added to its source gives the destination for such configs too.", "quantifier": "all schemas whose list keys are leaves, all trees and options (comparisons, building, deltas); all edits that name no entry by a container (sums); all comparable pairs of configs (round trip)", "why_tests_cant": "tests build configs from strings, from which the parser removes blank text; the claim is about any text in any container at any depth, in both operands.", "anchors": ["src/ncdiff/calculator.py: BaseCalculator._parse_text, _same_text, _node_le", "src/ncdiff/netconf.py: NetconfParser.ele, NetconfCalculator.node_sub, get_config_replace, node_add", "src/ncdiff/config.py: Config.__init__, Config.trim_defaults, Config._validate_node, Config.__add__"]}
{"id": "C97", "title": "A delta added to its own destination", "statement": "Adding b - a to b gives b again if no element of the delta has operation create or delete; if one has, anywhere in the delta, the sum is refused with ConfigDeltaError. With preferred_delete='remove' and preferred_create other than 'create' no element has, so such deltas can be added again and again. There is no condition on moved entries, on choices and cases or on the other options, nor on a.", "quantifier": "all schemas, all configs a and b, the keys of the user-ordered entries of b being without quotes, and all options", "why_tests_cant": "tests add a delta to its source once; that a second addition changes nothing or is refused depends on every combination of operations, on insert attributes that point to entries already in place and on containers deleted node by node.", "anchors": ["src/ncdiff/netconf.py: NetconfCalculator.node_add, _node_add_without_peer_*, _node_add_with_peer_*, NetconfCalculator.sub", "src/ncdiff/config.py: Config.__add__, ConfigDelta.nc"]}
{"id": "C98", "title": "The model name of a node", "statement": "get_model_name of a config or schema node returns the name of the loaded model that the node belongs to, the one whose tree has its schema node; where no loaded model has it, ModelMissing is raised. models_loaded lists the names of the models that were loaded, each once and in order.", "quantifier": "all histories of scans, loads, reloads and lookups, all paths", "why_tests_cant": "tests load one or two models once; which model wins a shared root depends on the order of first loads in the whole history, and augmented nodes and top level choices need models of several modules.", "anchors": ["src/ncdiff/manager.py: ModelDevice.get_model_name, ModelDevice.models_loaded, ModelDevice.roots", "src/ncdiff/composer.py: Composer.model_name, Composer.path", "src/ncdiff/config.py: Config.get_model_name"]}
{"id": "C99", "title": "Printing again shows the tree as it is", "statement": "str() of a Model or ModelDiff gives the text of its tree at that moment, however often it has been printed before: the widths that get_width keeps per parent do no harm.", "quantifier": "for all models and comparisons, trees, numbers of prints and changes of the tree between prints", "why_tests_cant": "The memory only matters from the second print on and after changes; the sequences of prints and changes are unbounded, and tests print each model once.", "anchors": ["src/ncdiff/model.py:Model.get_width", "src/ncdiff/model.py:Model.emit_tree", "src/ncdiff/model.py:ModelDiff"]}
{"id": "C100", "title": "Replies and notifications come with their namespaces", "statement": "Whatever execute() or take_notification() returns, a path given to its xpath() method is evaluated with a prefix for every namespace of the answer, or with the namespaces that the caller gives; receiving an answer never raises.", "quantifier": "for all answers, namespaces in them, tables of modules, before and after scan_models, with and without notifications in ncclient", "why_tests_cant": "Tests run with scanned devices in synchronous mode and one reply; answers before scan_models, in asynchronous mode and with unknown namespaces are unbounded in number and shape.", "anchors": ["src/ncdiff/manager.py:ModelDevice.execute", "src/ncdiff/manager.py:ModelDevice.take_notification", "src/ncdiff/manager.py:ModelDevice._get_ns", "src/ncdiff/__init__.py:xpath_rpcreply", "src/ncdiff/__init__.py:xpath_notification"]}
