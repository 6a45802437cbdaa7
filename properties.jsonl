{"id": "C01", "title": "compile_multi accepts exactly the well-formed pattern sets", "statement": "compile_multi(expressions, flags, ids, mode) returns Ok exactly when there is at least one and at most 8,000,000 expressions and, among the leading min(len(expressions), len(flags), len(ids)) of them, every expression is at most 16,000 bytes long, does not combine QUIET with SOM_LEFTMOST, starts with no control verb or one of (*UCP) (*UTF) (*UTF8), has balanced parentheses, and no two literal expressions sharing a match id disagree about SINGLEMATCH. With overflow checks on, acceptance additionally needs every '(' that opens a group to be the first character of its expression.", "quantifier": "every list of ASCII expressions, every flag and id list (of any lengths), every mode, every build profile", "why_tests_cant": "acceptance depends on arbitrary strings and on interactions between arbitrarily many patterns; tests can only sample both", "anchors": ["src/lib.rs:compile_multi_int", "src/compiler.rs:add_expression", "src/parser.rs:parse", "src/nfagraph/ng.rs:add_literal", "src/util/report_manager.rs:register_ext_report"]}
{"id": "C02", "title": "A rejected set names the first offending expression", "statement": "When compile_multi rejects a set for a per-expression reason, the error carries the position of the first expression that is unacceptable given the ones before it; every earlier expression was acceptable and no later expression influenced the result. Rejections of the whole set (empty, too many) carry no position.", "quantifier": "every list of expressions, flags and ids, every mode", "why_tests_cant": "a claim about the first failure among unboundedly many patterns", "anchors": ["src/lib.rs:compile_multi_int", "src/util/compile_error.rs:set_expression_index"]}
{"id": "C03", "title": "Every supplied expression is validated", "statement": "Documented contract: compile_multi returns an error if any expression is invalid. (Expected to be refuted: expressions beyond the end of the flags or ids slices are silently skipped.)", "quantifier": "every triple of expression, flag and id slices, including slices of different lengths", "why_tests_cant": "needs the result to be insensitive to, or decided by, unbounded trailing input", "anchors": ["src/lib.rs:compile_multi_int"]}
{"id": "C04", "title": "Single-expression compile is the one-element case; options that must not matter do not", "statement": "compile(e, f, m) gives the same result as compile_multi([e],[f],[0],m). Whether a single expression is accepted, and the error if not, does not depend on the mode, the id, or on any flag other than QUIET together with SOM_LEFTMOST.", "quantifier": "every expression, every two flag sets, every two ids, every two modes", "why_tests_cant": "a two-run (relational) claim over all inputs", "anchors": ["src/lib.rs:compile", "src/lib.rs:Flags", "src/compiler.rs:ParsedExpression::new"]}
{"id": "C05", "title": "No panic on ASCII input in release builds", "statement": "In a build without overflow checks and debug assertions, compile and compile_multi never panic and always terminate when all expressions are ASCII.", "quantifier": "every list of ASCII expressions of any size, every flag, id and mode", "why_tests_cant": "panic freedom is a for-all claim over arithmetic, indexing, expect and unwrap sites", "anchors": ["src/lib.rs:compile_multi", "src/compiler.rs:add_expression", "src/parser.rs:Context::main", "src/parser/shortcut_literal.rs:shortcut_literal", "src/smallwrite/smallwrite_build.rs:add_to_trie"]}
{"id": "C06", "title": "No panic on ASCII input in builds with overflow checks", "statement": "The same panic freedom in a debug build. (Expected to be refuted: opening a group anywhere but at index 0 subtracts a larger length from a smaller one.) The exact condition under which parsing panics by overflow is given.", "quantifier": "every ASCII expression, overflow checks on", "why_tests_cant": "the exact set of panicking inputs is infinite and has to be characterised, not sampled", "anchors": ["src/parser.rs:Context::push_sequence"]}
{"id": "C07", "title": "Non-ASCII input: exact panic condition", "statement": "Parsing an expression panics on the literal assertion exactly when a non-ASCII character is reached in the text after any control verb and no earlier unmatched ')' has already stopped the parse; a non-ASCII character inside a control verb never panics.", "quantifier": "every Unicode expression", "why_tests_cant": "the condition relates every prefix of an arbitrary string", "anchors": ["src/parser.rs:Context::main", "src/parser/control_verbs.rs:read_control_verbs"]}
{"id": "C08", "title": "Acceptance does not depend on the order of expressions, and sub-sets of accepted sets are accepted", "statement": "If compile_multi accepts a set then it accepts every permutation of the (expression, flags, id) triples and every non-empty sub-list of them.", "quantifier": "every accepted set, every permutation, every non-empty sub-list", "why_tests_cant": "relational claim over all permutations of unbounded lists while compilation mutates shared state", "anchors": ["src/lib.rs:compile_multi_int", "src/util/report_manager.rs:register_ext_report"]}
{"id": "C09", "title": "SINGLEMATCH conflicts are detected", "statement": "Two expressions that share a match id but disagree about SINGLEMATCH make compile_multi fail. (Expected to be refuted in general: an expression with an alternation or with no literal character never registers its id; for expressions that are literals it holds.)", "quantifier": "every pair of expressions at any positions in any set", "why_tests_cant": "conflicts may involve any two positions of an unbounded list", "anchors": ["src/util/report_manager.rs:register_ext_report", "src/nfagraph/ng.rs:add_literal", "src/nfagraph/ng.rs:add_graph"]}
{"id": "C10", "title": "The SINGLEMATCH conflict message tells the truth", "statement": "When a conflict is reported, the message names the conflicting index, the match id, the index of the earlier expression, and says correctly which of the two specified SINGLEMATCH. (Expected to be refuted: the message inverts what the earlier expression did.)", "quantifier": "every pair of conflicting registrations", "why_tests_cant": "the text is a function of arbitrary ids, indices and history", "anchors": ["src/util/report_manager.rs:register_ext_report"]}
{"id": "C11", "title": "A SINGLEMATCH conflict is an error value, not a panic", "statement": "compile_multi reports a SINGLEMATCH conflict by returning Err in every build. (Expected to be refuted with debug assertions: setting the index of an error that already has one trips an assertion; without debug assertions it holds.)", "quantifier": "every conflicting pattern set, every build profile", "why_tests_cant": "depends on histories that lead to a conflict", "anchors": ["src/lib.rs:compile_multi_int", "src/util/compile_error.rs:set_expression_index", "src/util/compile_error.rs:with_index"]}
{"id": "C12", "title": "Parsing succeeds exactly on balanced expressions", "statement": "Without overflow checks, an ASCII expression without control verb parses exactly when its parentheses balance: no prefix has more ')' than '(' and the totals agree.", "quantifier": "every ASCII string", "why_tests_cant": "unbounded strings and nesting depth", "anchors": ["src/parser.rs:Context::parse", "src/parser.rs:Context::main"]}
{"id": "C13", "title": "Parsing loses nothing: the tree determines the expression and vice versa", "statement": "If parsing succeeds the tree is the unique tree of a grammar derivation (alternation of sequences of literals and groups) whose text is exactly the parsed text; conversely the text of every derivation parses to its tree. Two different case-sensitive texts never give the same tree.", "quantifier": "every expression and every grammar derivation of any depth and width", "why_tests_cant": "round trip over all strings and all trees", "anchors": ["src/parser.rs:Context::parse", "src/parser/component_sequence.rs:add_alternation", "src/parser/component_sequence.rs:finalize", "src/parser.rs:Context::pop_sequence"]}
{"id": "C14", "title": "The tree means what the expression says", "statement": "The set of byte strings matched by the parse tree (sequence = concatenation, alternation = union, class = one byte of the class) is the language of the expression: every character other than ( ) | stands for itself, or for either case of itself when CASELESS is given and it is an ASCII letter; groups do not change the language.", "quantifier": "every accepted expression, both case modes, every candidate byte string", "why_tests_cant": "language equality ranges over infinitely many strings and expressions", "anchors": ["src/parser.rs:Context::main", "src/parser/component_class.rs:get_literal_component_class", "src/parser/ascii_component_class.rs:add"]}
{"id": "C15", "title": "Capture groups are numbered by opening parenthesis", "statement": "In the tree of an accepted expression the root has capture index 0, the groups carry 1..n in the order of their opening parentheses with n the number of '(' in the text, no index repeats, and alternation branches carry none. Past 2^32 - 1 groups the numbers start again from 0 and then some index repeats; with overflow checks no accepted expression has more than one group.", "quantifier": "every accepted expression", "why_tests_cant": "unbounded number and nesting of groups", "anchors": ["src/parser.rs:Context::push_sequence", "src/parser/component_sequence.rs:add_alternation"]}
{"id": "C16", "title": "Parenthesis errors are reported exactly when they occur", "statement": "Parsing reports 'Unmatched parentheses' exactly when some ')' comes after a balanced ASCII prefix, and 'Missing close parenthesis' exactly when the whole ASCII text has no such ')' and some group stays open; no other parse error comes from the body of an expression.", "quantifier": "every expression", "why_tests_cant": "exact error conditions over all strings", "anchors": ["src/parser.rs:Context::pop_sequence", "src/parser.rs:Context::parse"]}
{"id": "C17", "title": "'Missing close parenthesis' points at the open group", "statement": "The index in the message is the byte index of the innermost group left open. (Expected to be refuted: the subtraction is reversed, so the printed index is the two's complement of the real one and is right only for index 0.)", "quantifier": "every expression with an unclosed group", "why_tests_cant": "holds or fails for each of infinitely many positions", "anchors": ["src/parser.rs:Context::push_sequence", "src/parser.rs:Context::parse"]}
{"id": "C18", "title": "Control verbs are decoded exactly", "statement": "A verb is recognised exactly when the text starts with '(*', one or more characters other than ')', and ')'. UCP sets only the UCP option; UTF and UTF8 set only the UTF-8 option; each documented unsupported verb, and any verb beginning LIMIT_MATCH= or LIMIT_RECURSION=, is rejected as unsupported; any other verb as unknown; the message contains the verb and index start+2. Parsing continues right after the verb; with no verb the text and options are unchanged.", "quantifier": "every string and every initial option set", "why_tests_cant": "verbs are arbitrary strings followed by arbitrary text", "anchors": ["src/parser/control_verbs.rs:read_control_verbs", "src/parser/control_verbs.rs:control_verb"]}
{"id": "C19", "title": "At most one control verb is honoured", "statement": "A second control verb immediately after the first is not treated as a verb: it is parsed as an ordinary group and none of its option takes effect.", "quantifier": "every pair of verbs and every following text", "why_tests_cant": "arbitrary text after the verb", "anchors": ["src/parser.rs:parse", "src/parser/control_verbs.rs:read_control_verbs"]}
{"id": "C20", "title": "Located parse errors carry a location", "statement": "Every error of kind LocatedParse says where in the expression it occurred. (Expected to be refuted: 'Unmatched parentheses' has that kind but no location.)", "quantifier": "every expression that fails with that kind", "why_tests_cant": "universal over error paths and inputs", "anchors": ["src/parser.rs:Context::pop_sequence", "src/util/compile_error.rs:ErrorKind"]}
{"id": "C21", "title": "A character class behaves as a set of bytes under point updates", "statement": "For the 256-element class: after set(c), reset(c), flip(c), set_all, reset_all, flip_all, set_bytes, every byte's membership is what set theory says, all other bytes are untouched, and no operation panics in any build.", "quantifier": "every class value, every pair of bytes, every operation sequence", "why_tests_cant": "2^256 class values", "anchors": ["src/util/bitfield.rs:BitField256", "src/util/charreach.rs:CharReach"]}
{"id": "C22", "title": "Class union, intersection, symmetric difference and complement are the set operations", "statement": "&, |, ^, ! and their assigning forms compute the set operations pointwise, hence form a boolean algebra; two classes are equal exactly when they have the same members.", "quantifier": "every pair of classes", "why_tests_cant": "2^512 pairs", "anchors": ["src/util/bitfield.rs:BitAnd", "src/util/bitfield.rs:BitOr", "src/util/bitfield.rs:BitXor", "src/util/bitfield.rs:Not", "src/util/charreach.rs:CharReach"]}
{"id": "C23", "title": "Range insertion is exact", "statement": "set_range(from,to) panics exactly when from > to; otherwise it adds exactly the bytes from..=to, keeps all other members, and its word arithmetic never overflows.", "quantifier": "every class and every pair of bytes", "why_tests_cant": "word-boundary arithmetic over 2^256 starting values", "anchors": ["src/util/bitfield.rs:set_range", "src/util/charreach.rs:from_range", "src/util/ue2common.rs:round_up_n"]}
{"id": "C24", "title": "Member search and iteration are exact", "statement": "find_first, find_last and find_next return the least, greatest and next-larger member, or none; iterating find_first/find_next visits every member once in increasing order and terminates; the textual form of a class is that sequence.", "quantifier": "every class and every starting byte", "why_tests_cant": "2^256 classes", "anchors": ["src/util/bitfield.rs:find_first", "src/util/bitfield.rs:find_last", "src/util/bitfield.rs:find_next", "src/util/charreach.rs:fmt"]}
{"id": "C25", "title": "Counting and indexing members are exact", "statement": "count is the number of members; find_nth(n) is the (n+1)-th smallest member or none when n >= count; none, any and all agree with count being 0, positive and 256; no internal assertion fires.", "quantifier": "every class and every n", "why_tests_cant": "2^256 classes", "anchors": ["src/util/bitfield.rs:count", "src/util/bitfield.rs:find_nth", "src/util/bitfield.rs:none", "src/util/bitfield.rs:all"]}
{"id": "C26", "title": "Case closure is the smallest case-insensitive superset", "statement": "make_caseless adds exactly the other-case form of every ASCII letter present and nothing else; the result is closed under case change, is the least such superset, and repeating the operation changes nothing.", "quantifier": "every class", "why_tests_cant": "2^256 classes", "anchors": ["src/util/charreach.rs:make_caseless", "src/util/compare.rs:mytolower"]}
{"id": "C27", "title": "Class predicates mean what they say", "statement": "is_alphabetic: non-empty and only ASCII letters; is_caseless_char: exactly an upper/lower pair; is_bit5_insensitive: closed under flipping bit 5; is_subset_of: inclusion; overlaps: non-empty intersection; is_ascii: no member above 0x7f; is_utf8_start: no member below 0xc0.", "quantifier": "every class and every pair of classes", "why_tests_cant": "2^256 classes", "anchors": ["src/util/charreach.rs:is_alphabetic", "src/util/charreach.rs:is_caseless_char", "src/util/charreach.rs:is_bit5_insensitive", "src/util/charreach.rs:is_subset_of", "src/util/charreach.rs:overlaps", "src/util/charreach.rs:is_ascii", "src/util/charreach.rs:is_utf8_start"]}
{"id": "C28", "title": "And/compare masks never miss a member and are as tight as possible", "statement": "For the masks (a, m) of a class, every member c satisfies c & a = m; and the bytes passing the test pass every other and/compare test that all members pass. The empty class yields a test no byte passes.", "quantifier": "every class and every competing mask pair", "why_tests_cant": "2^256 classes and optimality over all masks", "anchors": ["src/util/charreach.rs:make_and_cmp_mask"]}
{"id": "C29", "title": "Filling a bit vector reproduces the class", "statement": "fill_bitvector(cr, bits) leaves bit (c mod 8) of byte (c div 8) set exactly when c is a member, for a buffer of at least 32 bytes, and panics otherwise. (Expected to be refuted: the shift amount uses c & 8 instead of c & 7.)", "quantifier": "every class and every buffer", "why_tests_cant": "2^256 classes", "anchors": ["src/util/charreach.rs:fill_bitvector"]}
{"id": "C30", "title": "Classes are totally ordered consistently with equality", "statement": "The derived comparison of classes is a total order whose equality is set equality.", "quantifier": "every triple of classes", "why_tests_cant": "2^768 triples", "anchors": ["src/util/bitfield.rs:BitField256", "src/util/charreach.rs:CharReach"]}
{"id": "C31", "title": "Feeding a pattern to the literal engine preserves its language", "statement": "When an expression is recognised as a literal, the literal (bytes plus per-byte case flags) matches exactly the byte strings the parse tree matches.", "quantifier": "every parse tree, every candidate byte string", "why_tests_cant": "language equality over infinite sets", "anchors": ["src/parser/shortcut_literal.rs:ConstructLiteralVisitor", "src/util/ue2string.rs:push"]}
{"id": "C32", "title": "The literal path is taken exactly for literal patterns", "statement": "An accepted expression is handled as a literal exactly when its text after any verb has no '|' and at least one character other than parentheses; its bytes are that text without parentheses (uppercased letters flagged caseless under CASELESS). Mixed-sensitivity rejection never triggers for parsed expressions. A literal whose index does not fit 32 bits panics.", "quantifier": "every accepted expression, both case modes", "why_tests_cant": "unbounded strings", "anchors": ["src/parser/shortcut_literal.rs:shortcut_literal", "src/nfagraph/ng.rs:add_literal"]}
{"id": "C33", "title": "Mixed case sensitivity is detected exactly", "statement": "mixed_sensitivity is true exactly when the literal has an ASCII letter flagged caseless and an ASCII letter not flagged.", "quantifier": "every literal", "why_tests_cant": "unbounded literals", "anchors": ["src/util/ue2string.rs:mixed_sensitivity", "src/util/compare.rs:ourisalpha"]}
{"id": "C34", "title": "Literal equality agrees with literal ordering", "statement": "Two literals compare Equal exactly when ==, and the ordering is total and transitive: lexicographic on the bytes, then on the case flags. (Expected to be refuted for the first half: == ignores the case flags.)", "quantifier": "every pair and triple of literals", "why_tests_cant": "unbounded literals", "anchors": ["src/util/ue2string.rs:eq", "src/util/ue2string.rs:cmp"]}
{"id": "C35", "title": "Internal report ids are stable, dense and invertible", "statement": "Across any sequence of requests, the same report always gets the same id, different reports get different ids, ids are 0..n-1 with n the number of distinct reports, looking an id up returns the report it was issued for, and a request fails exactly when the report is new and the limit is reached, changing nothing. A sequence of requests runs through exactly when no request comes to need a number past 2^32 - 1, and otherwise panics.", "quantifier": "every sequence of report requests, every limit", "why_tests_cant": "history property over unbounded request sequences", "anchors": ["src/util/report_manager.rs:get_internal_id", "src/util/report_manager.rs:get_report"]}
{"id": "C36", "title": "Exhaustion keys are stable, dense and injective", "statement": "Across any sequence of requests the same match id always yields the same exhaustion key, different match ids different keys, and keys are 0..n-1 in order of first request.", "quantifier": "every sequence of requests that runs through (see C35 for when it does)", "why_tests_cant": "history property over unbounded request sequences", "anchors": ["src/util/report_manager.rs:get_exhaustible_key"]}
{"id": "C37", "title": "Global exhaustibility and registration follow the history", "statement": "After any sequence of registrations an id is recorded with the SINGLEMATCH choice and index of its first successful registration; a registration fails exactly when it disagrees with that choice and then changes nothing; the global-exhaust mark holds exactly when every successful registration specified SINGLEMATCH.", "quantifier": "every sequence of registrations", "why_tests_cant": "history property", "anchors": ["src/util/report_manager.rs:register_ext_report"]}
{"id": "C38", "title": "Different match ids are reported separately", "statement": "Literal expressions with different match ids are given different internal reports. (Expected to be refuted: a report keeps neither the id nor the key, so all literals share internal report 0.)", "quantifier": "every pattern set", "why_tests_cant": "every pattern set and history", "anchors": ["src/util/report.rs:make_e_callback", "src/nfagraph/ng.rs:add_literal"]}
{"id": "C39", "title": "The small-write dictionary holds exactly the accepted literals", "statement": "After any sequence of insertions, walking the dictionary by a byte string ends at a node carrying a report exactly when some inserted literal has those bytes and that report; the set of all reports is exactly those inserted; it is empty exactly when only empty literals were inserted. Inserting again what is there already changes nothing. Insertions go through exactly as long as there are at most 2^32 - 1 distinct prefixes, beyond which they panic.", "quantifier": "every insertion sequence and every byte string", "why_tests_cant": "unbounded insertion histories", "anchors": ["src/smallwrite/smallwrite_build.rs:add_to_trie", "src/smallwrite/smallwrite_build.rs:LitTrie"]}
{"id": "C40", "title": "The dictionary stays a tree", "statement": "After any sequence of insertions every non-root node has exactly one parent, is reachable from the root, siblings carry distinct bytes, and the number of nodes is the number of distinct prefixes of inserted literals.", "quantifier": "every insertion sequence", "why_tests_cant": "structural invariant over unbounded histories", "anchors": ["src/smallwrite/smallwrite_build.rs:add_to_trie"]}
{"id": "C41", "title": "Small-write limits are enforced for good", "statement": "The small-write builder becomes disabled exactly when disallowed, given too many patterns, more than the allowed number of short literals (a limit of usize::MAX allows any number), or a dictionary of more than 8000 nodes; once disabled nothing changes any more; literals longer than the buffer limit are ignored and not counted; its size never exceeds the node limit by more than one literal. It panics exactly at the literal that cannot be counted any more with overflow checks, or that would give a dictionary more nodes than petgraph can number; neither can happen unless the literal limit is usize::MAX or the buffer limit is within 8000 of 2^32.", "quantifier": "every configuration of usize limits and every insertion sequence", "why_tests_cant": "history property with counters at their limits", "anchors": ["src/smallwrite/smallwrite_build.rs:add_literal", "src/smallwrite/smallwrite_build.rs:SmallWriteBuild::new"]}
{"id": "C42", "title": "Skipping long literals loses no small-write match", "statement": "If the small-write builder is not disabled, every literal given to it that occurs in some buffer no longer than the configured limit is in one of its dictionaries, the caseless ones in the caseless dictionary and the others in the case-sensitive one.", "quantifier": "every configuration of usize limits, every insertion sequence, every buffer within the limit", "why_tests_cant": "ranges over all buffers and histories", "anchors": ["src/smallwrite/smallwrite_build.rs:add_literal"]}
{"id": "C43", "title": "Graph building creates one position per literal character", "statement": "Building the graph of an accepted expression yields the four special vertices followed by exactly one vertex per literal character in text order, each reachable on exactly that character's class, with no reports and no extra edges.", "quantifier": "every accepted expression", "why_tests_cant": "unbounded expressions", "anchors": ["src/parser/component.rs:note_positions", "src/nfagraph/ng_builder.rs:NfaBuilder", "src/nfagraph/ng_holder.rs:NgHolder::new"]}
{"id": "C44", "title": "Graph queries are exact, and vacuous patterns are visible", "statement": "all_reports is the union of the reports of the predecessors of accept and accept-at-end; is_vacuous holds exactly when a start vertex has an edge to an accept vertex. A graph built for an expression that matches the empty string is vacuous. (Last part expected to be refuted: no such edges are ever built.)", "quantifier": "every graph; every expression", "why_tests_cant": "arbitrary graphs", "anchors": ["src/nfagraph/ng_holder.rs:all_reports", "src/nfagraph/ng_holder.rs:is_vacuous", "src/compiler.rs:build_graph"]}
{"id": "C45", "title": "Minimum width is the shortest literal", "statement": "After adding any literals, the recorded minimum width is the least length of those accepted, or infinite if none, and adding never fails for depth overflow within the pattern length limit.", "quantifier": "every sequence of literal additions", "why_tests_cant": "history property", "anchors": ["src/nfagraph/ng.rs:add_literal", "src/util/depth.rs:Depth"]}
{"id": "C46", "title": "The database records the right scanning mode and runtime", "statement": "The database of any accepted set scans in the requested block, streaming or vectored mode, and uses the full runtime. The engine it is made from was never asked for start of match, reports nothing at the boundaries and carries the default configuration. The pure-literal runtime would be chosen exactly when floating literals are the only resource in use.", "quantifier": "every accepted set, every mode, every resource combination", "why_tests_cant": "every accepted set", "anchors": ["src/rose/rose_build.rs:build_final_engine", "src/rose/rose_build_bytecode.rs:pick_runtime_impl", "src/rose/rose_build_bytecode.rs:is_pure_floating", "src/nfagraph/ng.rs:add_graph"]}
{"id": "C47", "title": "scan never fails and never touches its arguments", "statement": "scan returns Ok for every database, every data buffer and every scratch, and leaves the scratch unchanged; hence successive scans are independent.", "quantifier": "every database, buffer, scratch and sequence of scans", "why_tests_cant": "every buffer and history", "anchors": ["src/runtime.rs:scan"]}
{"id": "C48", "title": "Rounding helpers align correctly", "statement": "round_up and round_down return the nearest multiple of the power of two in the respective direction. (Expected to be refuted for word-sized values: the mask is only eight bits wide, so values whose result needs more than eight bits are truncated; below that they are correct.) An alignment of 0 panics with overflow checks and gives 0 without.", "quantifier": "every value and power-of-two alignment", "why_tests_cant": "all 2^64 values", "anchors": ["src/util/ue2common.rs:round_up_n", "src/util/ue2common.rs:round_down_n", "src/util/ue2common.rs:round_up_16", "src/util/ue2common.rs:round_down_16", "src/util/ue2common.rs:round_up_cache_line"]}
{"id": "C49", "title": "Depth values convert and compare faithfully", "statement": "Conversion to a depth succeeds exactly for values up to 2^31-2 and keeps the value; comparison is a total order consistent with equality, namely that of the values; infinity is larger than every finite depth.", "quantifier": "every 32- and 64-bit value", "why_tests_cant": "all values", "anchors": ["src/util/depth.rs:Depth"]}
{"id": "C50", "title": "Described characters are unambiguous and described classes are faithful", "statement": "describe_char never renders two bytes alike in one style, and writes exactly the visible characters other than the backslash as themselves, some after backslashes; describe_class terminates without panic and different classes are rendered differently. (Second half expected to be refuted: a short final range ending at 0xff overflows or loops for ever, and the final range is dropped unless it ends at 0xff.)", "quantifier": "every byte pair, every class", "why_tests_cant": "2^256 classes", "anchors": ["src/util/dump_charclass.rs:describe_char", "src/util/dump_charclass.rs:describe_range", "src/util/dump_charclass.rs:describe_class_int", "src/util/dump_charclass.rs:describe_class"]}
{"id": "C51", "title": "Dumping a parsed tree terminates, balances indentation and shows its structure", "statement": "Dumping any tree produced by the parser never panics and prints one header per sequence and alternation and two lines per class, each indented by twice its nesting depth. Different trees give different dumps. (Last part expected to be refuted under CASELESS.)", "quantifier": "every accepted expression", "why_tests_cant": "unbounded trees", "anchors": ["src/parser/dump.rs:DumpVisitor", "src/parser/dump.rs:dump_tree"]}
{"id": "C52", "title": "Visitors see every node once, in order", "statement": "Walking a tree calls the pre and post hooks of every node exactly once, properly nested and in left-to-right order, the in-between hook between consecutive children, and stops at the first error.", "quantifier": "every finalized tree, every visitor", "why_tests_cant": "unbounded trees and arbitrary visitors", "anchors": ["src/parser/component.rs:walk_component", "src/parser/component_sequence.rs:walk_component_sequence", "src/parser/component_alternation.rs:walk_component_alternation", "src/parser/ascii_component_class.rs:walk_ascii_component_class"]}
{"id": "C53", "title": "Region connection obeys the edge filters", "statement": "Connecting last positions to first positions records, for each last position, exactly the first positions that pass the float and multiline filters (the accept position being replaced by a fresh vertex) and removes none recorded before; positions flagged as caret-only are never wired to the floating start. Connecting panics exactly at a last position for which the accept position has to be replaced and no vertex number is left, or which is not a vertex of the graph, or, with debug assertions, is the epsilon; the panic tells which.", "quantifier": "every builder state, every list of last and first positions", "why_tests_cant": "arbitrary position lists and histories", "anchors": ["src/parser/build_state.rs:connect_regions", "src/parser/build_state.rs:connect_successors", "src/parser/build_state.rs:filter_edges"]}
{"id": "C54", "title": "From start, only caret-flavoured epsilons are wired", "statement": "When connecting from the anchored start, epsilon positions that are not caret flavoured are removed and caret-flavoured ones kept. (Expected to be refuted: the test is inverted.)", "quantifier": "every list of first positions", "why_tests_cant": "arbitrary position lists", "anchors": ["src/parser/build_state.rs:filter_edges"]}
{"id": "C55", "title": "The compiled dictionaries hold exactly the short literals", "statement": "After any accepted pattern set, unless the small-write path was given up, a byte string carries a report in the case-sensitive (caseless) dictionary exactly when some expression contributes a literal with these bytes, of at most 70 bytes, without (with) caseless bytes; and the path is given up exactly when there are more than 10000 patterns, more than 10000 short literals, or more than 8000 distinct prefixes in one of the dictionaries.", "quantifier": "every accepted pattern set, every byte string", "why_tests_cant": "unbounded pattern sets and byte strings", "anchors": ["src/smallwrite/smallwrite_build.rs:add_literal", "src/nfagraph/ng.rs:add_literal", "src/lib.rs:compile_multi"]}
{"id": "C56", "title": "No literal match is lost between the pattern text and the dictionary", "statement": "If a word of the language of an accepted literal expression occurs in a buffer of at most 70 bytes and the small-write path was not given up, the bytes of the expression are a path of the dictionary for its case and carry a report.", "quantifier": "every accepted pattern set, every expression of it, every buffer", "why_tests_cant": "end-to-end over unbounded pattern sets", "anchors": ["src/parser/shortcut_literal.rs", "src/smallwrite/smallwrite_build.rs:add_literal", "src/nfagraph/ng.rs:add_literal"]}
{"id": "C57", "title": "Match ids and exhaustion keys of a compiled set follow the arguments of the call", "statement": "After any accepted pattern set each match id of a literal is recorded with the index and SINGLEMATCH choice of the first literal that has it and no other id is; the ids of the SINGLEMATCH literals, and no others, have exhaustion keys, numbered 0..n-1 in order of first appearance; the set is globally exhaustible exactly when all its literals are SINGLEMATCH.", "quantifier": "every accepted pattern set", "why_tests_cant": "unbounded pattern sets, arbitrary id collisions", "anchors": ["src/util/report_manager.rs", "src/nfagraph/ng.rs:add_literal", "src/lib.rs:compile_multi"]}
{"id": "C58", "title": "Alternation, grouping and concatenation of accepted expressions mean union and product", "statement": "If two expressions are accepted, and the second does not begin with a control verb, joining them with '|' is accepted where arithmetic wraps and matches exactly the strings matched by one of the two; wrapping an expression in a group keeps what it matches; two groups side by side, and two texts without a bar outside groups, match exactly the concatenations; the empty expression matches exactly the empty string.", "quantifier": "every pair of accepted expressions, every mode and profile", "why_tests_cant": "all pairs of expressions; an algebraic law of the parser as a whole", "anchors": ["src/parser.rs:parse", "src/parser/component_sequence.rs", "src/parser/component_alternation.rs"]}
{"id": "C59", "title": "CASELESS matches exactly the case variants of what the expression matches without it", "statement": "The same text parsed with and without CASELESS is accepted in the same cases; with it, it matches exactly the strings that differ from a string matched without it only in the case of ASCII letters; that set is closed under changing case.", "quantifier": "every expression, every pair of modes", "why_tests_cant": "all expressions and all words", "anchors": ["src/parser.rs:parse", "src/parser/component_class.rs", "src/util/charreach.rs:make_caseless"]}
{"id": "C60", "title": "Every accepted expression has a finite nonempty language of bounded words", "statement": "An accepted expression matches at least one and at most 2^(bars + letters if CASELESS) strings, each no longer than its number of plain characters and made of ASCII bytes.", "quantifier": "every accepted expression", "why_tests_cant": "all expressions; counts grow exponentially", "anchors": ["src/parser.rs:parse"]}
{"id": "C61", "title": "Error messages name the offending expression and can be read back", "statement": "The text of every error of a compile call is one of the two whole-call messages or the reason followed by ' in expression ' and the index in decimal; equal texts come from equal reasons and equal indices.", "quantifier": "every call that fails", "why_tests_cant": "unbounded indices and reasons that contain user text", "anchors": ["src/util/compile_error.rs", "src/lib.rs:compile_multi"]}
{"id": "C62", "title": "Parse trees are linear in the expression and as deep as its groups", "statement": "The tree of an accepted expression has at most 1 + 3n nodes for n characters (1 + plain characters + groups + 3 per bar) and its height is at most 4 + 3d when at most d groups are open at once.", "quantifier": "every accepted expression", "why_tests_cant": "all lengths and nestings", "anchors": ["src/parser.rs:parse", "src/parser/component_sequence.rs:add_alternation", "src/parser/component_sequence.rs:finalize"]}
{"id": "C63", "title": "The mode decides nothing but the kind of database", "statement": "Whether a set is accepted, the error it gives and whether it panics do not depend on the mode; the SOM horizon of a streaming mode has no effect on the result; only block mode is not streaming, only vectored mode is vectored; the large, medium and small horizons keep match starts as 64, 32 and 16 bits, vectored mode as 64 and the other modes not at all.", "quantifier": "every pattern set, every pair of modes", "why_tests_cant": "all pattern sets", "anchors": ["src/lib.rs:Mode", "src/lib.rs:compile_multi"]}
{"id": "C64", "title": "A whole expression on the small-write path either gives the path up or is unsupported", "statement": "Adding a graph to the small-write path leaves a given-up path alone; otherwise it gives the path up, leaving both dictionaries as they are, when the expression wants start-of-match, is vacuous or has a report with a minimum length, and is unimplemented in all other cases. For every graph built from a parsed expression only the first reason ever applies.", "quantifier": "every small-write state, graph, expression and report manager that knows the reports of the graph", "why_tests_cant": "arbitrary graphs and histories", "anchors": ["src/smallwrite/smallwrite_build.rs:add_expression"]}
{"id": "C65", "title": "The ASCII case helpers map exactly the 26 letters", "statement": "myisupper, myislower and ourisalpha hold for exactly the ASCII upper case letters, lower case letters and both; mytolower and mytoupper exchange a letter with its counterpart, leave every other byte alone, and absorb each other.", "quantifier": "every byte", "why_tests_cant": "boundary bytes and bytes above 127", "anchors": ["src/util/compare.rs"]}
{"id": "C66", "title": "Adding a literal does exactly what the configuration says, whatever came before", "statement": "After any history of requests to add a literal, under any configuration, the next one is refused when shortcuts are off or its letters are of both cases, fails with the conflict text and its own index when its id was first registered with the other SINGLEMATCH setting, fails for the report limit or its depth, or is taken. The engine then holds exactly what the registered requests imply: the first registration of each id, whether all are single-match, whether any wanted start of match, the ids that took a key, one report, the dictionary of the taken literals and the least of their lengths. A request runs into a debug assertion exactly for an empty literal or a registered start-of-match request with SINGLEMATCH, and otherwise the history panics exactly at the first registered request that needs a key for a single match when 2^32 ids have one already, or that the small-write builder can no longer count.", "quantifier": "every configuration of usize limits and every history of requests, failing ones included", "why_tests_cant": "unbounded histories, and the configuration is fixed in the public API", "anchors": ["src/nfagraph/ng.rs:add_literal", "src/util/report_manager.rs", "src/smallwrite/smallwrite_build.rs:add_literal"]}
{"id": "C67", "title": "What a configuration can change about compiling a set", "statement": "Under any configuration, a set is accepted exactly when it is not empty, within the pattern limit, every item is acceptable within the configured length, a literal taken by itself is no longer than a depth can be and any other pattern no bigger than a graph can be, and, if literals are taken by themselves, reports are allowed whenever there is a literal and no two literals conflict, and, if literals are looked for at all, none has an index of 2^32 or more. The whole outcome depends on nothing else of the configuration, the database does not depend on it at all, and without shortcuts match ids play no part. A literal that is too long fails with the depth text, a pattern that is too big panics.", "quantifier": "every configuration of usize limits and every set of patterns, of any size", "why_tests_cant": "configurations other than the default cannot be reached from tests of the public API", "anchors": ["src/lib.rs:compile_multi_int", "src/compiler.rs:add_expression", "src/parser/shortcut_literal.rs", "src/grey.rs"]}
{"id": "C68", "title": "What the engine holds depends on the set of items, not on order, repetition, mode or build", "statement": "Two accepted calls with the same items, given in any order and any number of times, in any mode and build, produce engines with the same least literal width, the same all-single-match verdict, the same number of reports and of exhaustion keys, keys for the same ids, the same SINGLEMATCH setting for every registered id, and, unless a dictionary was given up, the same strings with the same reports in both dictionaries. Reordering a call does not change whether the dictionaries are given up.", "quantifier": "every two accepted sets with the same items; every permutation", "why_tests_cant": "all orders and multiplicities of all sets", "anchors": ["src/lib.rs:compile_multi_int", "src/nfagraph/ng.rs:add_literal", "src/util/report_manager.rs", "src/smallwrite/smallwrite_build.rs"]}
{"id": "C69", "title": "With CASELESS the case of letters outside a control verb does not matter", "statement": "Two texts that start with the same control verb, or both with none, and otherwise differ in the case of ASCII letters only give the same outcome of parsing with CASELESS: the same tree, the same error at the same position, or the same panic. A set in which the texts of CASELESS items are changed in this way produces the same engine, the same database and the same error.", "quantifier": "every text, every change of case, every set and every build", "why_tests_cant": "2^n variants of every text, failing texts included", "anchors": ["src/parser.rs:parse", "src/parser/ascii_component_class.rs", "src/util/charreach.rs:make_caseless", "src/parser/control_verbs.rs"]}
{"id": "C70", "title": "Which parse errors are final and which can be repaired by more text", "statement": "A parse error of the located kind (unmatched parenthesis, rejected control verb) stays the same error whatever is appended to the text. The other parse error can be repaired by appending text exactly when the text so far is not the beginning of a control verb that no accepted verb continues. A panic stays the same panic unless the text is an unfinished control verb. Every accepted text becomes an unmatched-parenthesis error for good by appending a closing parenthesis.", "quantifier": "every text, every continuation, every mode and build", "why_tests_cant": "unbounded continuations of unbounded texts", "anchors": ["src/parser.rs:parse", "src/parser.rs:exit_group", "src/parser/control_verbs.rs:read_control_verbs"]}
{"id": "C71", "title": "Extra build checks only ever turn an outcome into a failed check", "statement": "Take two builds for the same target, one of which makes every check (arithmetic overflow, debug assertion) the other makes. For every function of the crate that is sensitive to the build and every argument, the outcome with more checks is the outcome with fewer, or a panic of an overflow check or debug assertion. So a set that compiles in a checked build compiles to the same database in release, with the same errors otherwise.", "quantifier": "every pair of comparable builds, every function and every argument, every configuration", "why_tests_cant": "two builds compared on all inputs; tests run one build", "anchors": ["src/lib.rs:compile_multi_int", "src/parser.rs:parse", "src/util/bitfield.rs", "src/util/charreach.rs", "src/parser/dump.rs", "src/nfagraph/ng.rs:add_literal", "src/parser/build_state.rs"]}
{"id": "C72", "title": "What each compile option does, and which have no effect", "statement": "The eleven options are the bits 0 to 10; the complement of a set of options holds exactly the other declared options. The parser reads a text with CASELESS, DOTALL, MULTILINE, UCP and UTF8 as given by the bits or by a leading control verb, and what is noted about an expression (index, id, single match, UTF-8, prefilter, quiet, no start of match) follows the bits. Two calls whose options agree on CASELESS, on SINGLEMATCH and on QUIET together with SOM_LEFTMOST give the same engine and the same result, under any configuration and build; each of these three does change the engine of some call.", "quantifier": "every set of options, every set of expressions, every configuration, mode and build", "why_tests_cant": "2^11 options for every position of every set, compared pairwise", "anchors": ["src/lib.rs:Flags", "src/parser.rs:ParseMode", "src/compiler.rs:ParsedExpression::new"]}
{"id": "C73", "title": "The graph builder is a growing store of classes", "statement": "After any sequence of requests for new positions and classes for existing positions, a builder has its four special positions and those asked for, numbered consecutively from 4; every position has exactly the bytes of the classes given to it (the two start positions all bytes), no reports and no flags; special positions, edges and the expression are as at the beginning. Asking about, or giving a class to, a position that does not exist panics; so does a position beyond the index limit.", "quantifier": "every sequence of requests", "why_tests_cant": "unbounded interleavings of requests, up to 2^32 positions", "anchors": ["src/nfagraph/ng_builder.rs", "src/nfagraph/ng_holder.rs"]}
{"id": "C74", "title": "The dictionaries recognise exactly the words of the literal expressions", "statement": "Unless the dictionaries of an accepted set were given up, looking up a word in the case-sensitive dictionary, or its upper-case form in the caseless one, ends at a report exactly if the word has at most 70 bytes and is in the language of some literal expression of the set (read after its control verb, with its CASELESS option). So for a buffer of at most 70 bytes every part of it is recognised exactly if a literal expression matches it. The recorded minimum width is the length of the shortest such word, and infinite if there is none.", "quantifier": "every accepted set of expressions, mode, build, word and buffer", "why_tests_cant": "all words against all sets of expressions, in both directions", "anchors": ["src/smallwrite/smallwrite_build.rs", "src/nfagraph/ng.rs", "src/parser/shortcut_literal.rs", "src/compiler.rs"]}
{"id": "C75", "title": "A longer set keeps what a shorter one has", "statement": "If a set of expressions is accepted so is every beginning of it. Adding expressions at the end keeps the exhaustion keys with their numbers, the internal reports, and every recorded external report; new entries carry the index of a new expression. The minimum width can only shrink, global exhaustibility can only be lost, and dictionaries once given up stay given up; otherwise the longer set recognises the words of the shorter one and those of the new literal expressions, and no others.", "quantifier": "every two sets of which one continues the other, modes and builds chosen independently", "why_tests_cant": "relates two compilations of sets of any size", "anchors": ["src/lib.rs:compile_multi", "src/util/report_manager.rs", "src/smallwrite/smallwrite_build.rs", "src/nfagraph/ng.rs"]}
{"id": "C76", "title": "A whole compilation does exactly what a short reference function says", "statement": "The complete outcome of a call to compile_multi equals that of a short function that keeps no parse trees, classes, graphs, report tables or dictionaries. It refuses an empty list and more than 8000000 expressions. It takes the items in order: a text of more than 16000 bytes is refused, then QUIET with SOM_LEFTMOST, then a leading control verb other than UTF8, UTF and UCP (as unsupported if it is a documented one, else as unknown, at index 2); then the rest is read once, keeping the positions of the open groups: a non-ASCII character crashes, with checked arithmetic an opening parenthesis other than the first character of the expression crashes, a closing parenthesis without an open group is refused, and a group left open at the end is refused with the position of the innermost one subtracted from zero modulo 2 to the width of a pointer. A literal (no bar, something besides parentheses) whose id was first used by an earlier literal with the other SINGLEMATCH option is refused with a text naming both, and with debug assertions crashes. Every refusal carries the index of the item. Otherwise the database is the full engine in the requested scan mode. For one text, parse succeeds, fails with this error, or crashes exactly as the reader says; and compile of one expression depends on its own text and options only.", "quantifier": "every list of expressions, flags and ids of any lengths, every mode and build; no hypotheses", "why_tests_cant": "equality of two functions on all calls", "anchors": ["src/lib.rs:compile_multi", "src/compiler.rs", "src/parser.rs:parse", "src/parser/control_verbs.rs", "src/util/report_manager.rs", "src/parser/shortcut_literal.rs"]}
{"id": "C77", "title": "The raw pointer inside the pinned engine builder is never dangling or stale", "statement": "Ng::new builds a value whose small-write builder holds a dangling pointer, moves it into a pinned box and then aims the pointer at the report manager inside the box. With any number of boxes alive and any sequence of creations, added expressions, literals and graphs, small-write expressions, builds and drops, following the pointer of a live box always gives the current report manager of that same box. No step is undefined behaviour unless it is made on a box not yet made or already dropped, and such a step always is. The result, panic or answer of every step is that of the same code on plain values without pointers, and a step changes no other box. compile_multi run this way gives the result it gives without boxes, makes exactly one box if the set is non-empty and not too large, drops it again whether it succeeds or fails, and leaves all other boxes alone. Moving a live box elsewhere would make the next look at a report undefined.", "quantifier": "every sequence of calls on every number of boxes, every heap in which live boxes point to themselves, every list of expressions, flags and ids, every mode, limits and build", "why_tests_cant": "no test dereferences the pointer, undefined behaviour need not show in a test, and the claim is about all interleavings", "anchors": ["src/nfagraph/ng.rs:new", "src/smallwrite/smallwrite_build.rs:add_expression", "src/parser/shortcut_literal.rs:shortcut_literal", "src/compiler.rs:add_expression", "src/lib.rs:compile_multi_int"]}
{"id": "C78", "title": "The pointer width of the target changes one number in one message", "statement": "Take two builds that make the same checks, for targets with 32- or 64-bit pointers. For every call of compile_multi the complete outcomes are the same, or both are the 'Missing close parenthesis' error for the same pattern and the same group, with the group's position subtracted from 2^32 on one target and from 2^64 on the other. On different targets the outcomes differ exactly when such an error is reported for a group that does not start its pattern. So acceptance, the database, the kind of error, its index and every panic are the same.", "quantifier": "every list of expressions, flags and ids, every mode, every pair of builds with the same checks", "why_tests_cant": "tests run on one target", "anchors": ["src/lib.rs:compile_multi", "src/parser.rs:Context::push_sequence", "src/util/bitfield.rs", "src/parser/control_verbs.rs", "src/smallwrite/smallwrite_build.rs:add_literal"]}
{"id": "C79", "title": "The order of hash sets never shows", "statement": "The crate runs through a hash set with an early exit in one place, where the small-write builder looks for a report with a least length among those of a graph. Over all orders in which the set may yield its elements, the possible outcomes are: giving up, if some report of the graph has a least length; an index panic, if some was never registered; and 'not implemented', if all are registered and none has a least length. So the order matters exactly when the reports are looked at and there are both a report with a least length and an unregistered one. It never matters for the graph of a parsed expression, nor, whatever the graph, for a builder on which any sequence of the crate's calls has been made, as no report made by the crate has a least length.", "quantifier": "every report table, builder state, graph, expression and iteration order; every sequence of calls", "why_tests_cant": "hash order is random per run, so a test sees one order", "anchors": ["src/smallwrite/smallwrite_build.rs:add_expression", "src/nfagraph/ng_holder.rs:all_reports", "src/util/report_manager.rs:get_report", "src/util/report.rs"]}
{"id": "C80", "title": "A dump to a writer that may fail", "statement": "The dump of a class or a tree is offered to its writer in pieces that do not depend on the writer; joined, they are the text a String would get. If the writer takes them all the dump succeeds; at the first piece it refuses the dump stops with the writer's error, offers nothing further and leaves the writer as the refusal left it. So a writer that keeps a text always ends with a beginning of the dump, and with all of it exactly when no error is returned; a buffer with room for n bytes succeeds exactly when the dump has at most n bytes.", "quantifier": "every tree, class, length limit, output type and build; every writer and writer state", "why_tests_cant": "the tests write to a String, which never refuses", "anchors": ["src/parser/dump.rs:dump_tree", "src/parser/dump.rs:DumpVisitor", "src/util/dump_charclass.rs:describe_class", "src/util/dump_charclass.rs:describe_char"]}
{"id": "C81", "title": "The Debug text of an error determines it", "statement": "The fields of CompileError are private, so its Debug text is all a user can see of the kind. That text has the fields in order with their names, the kind as its name, the reason as a string literal that stands for exactly the reason, and the index as None or Some of a decimal number; the text, plain or pretty, determines kind, reason and index, whichever characters the standard library chooses to escape; texts written by two versions of the library never coincide for different errors. It is one line if control characters are escaped. For the errors the crate returns the kind can also be told from the first words of the reason, ResourceLimit never occurs, and so the Display text determines the whole error, which it does not for errors in general.", "quantifier": "every error, every choice of escaped characters; every pair of calls of compile_multi", "why_tests_cant": "statements about all pairs of errors and about the Unicode tables of every library version", "anchors": ["src/util/compile_error.rs:CompileError", "src/util/compile_error.rs:ErrorKind", "src/util/compile_error.rs:fmt", "src/lib.rs:compile_multi"]}
{"id": "C82", "title": "Functions panic when their documentation says they do", "statement": "Each function with a '# Panics' section panics under the condition given there: set_range and from_range if the bounds are reversed, get_report if the id is out of bounds, fill_bitvector if the buffer is short, describe_range if c1 > c2, get_exhaustible_key if the index is too large.", "quantifier": "every argument, state of the report manager and build", "why_tests_cant": "the conditions range over all arguments, and differ between builds", "anchors": ["src/util/bitfield.rs:set_range", "src/util/charreach.rs:set_range", "src/util/charreach.rs:from_range", "src/util/charreach.rs:fill_bitvector", "src/util/dump_charclass.rs:describe_range", "src/util/report_manager.rs:get_report", "src/util/report_manager.rs:get_exhaustible_key"]}
{"id": "C83", "title": "A class built from characters holds exactly what they stand for", "statement": "Adding characters to a class in any order and with repetitions gives the class of exactly the bytes they stand for: each itself, and in caseless mode a letter's other case too, characters 0x80 to 0xff being no letters. The mode stays. A character above 0xff ends this with the 'greater than \\xFF' error of kind LocatedParse. The class of a literal is the one-character case. No parse ever reports that error.", "quantifier": "every class, mode, sequence of characters and build; every expression", "why_tests_cant": "tests add a few characters; the statement is about all characters and all sequences", "anchors": ["src/parser/component_class.rs:add", "src/parser/component_class.rs:get_literal_component_class", "src/parser/ascii_component_class.rs:add", "src/parser.rs:add_literal"]}
{"id": "C84", "title": "How deep the recursion over a parse tree goes", "statement": "Walking a tree with a visitor and noting its positions recurse; counted in calls active at once, both need exactly 2 per sequence (1 when it is a branch), 2 per alternation and 3 per class along the deepest path. With that much stack the limit makes no difference; a run that reaches the end of the tree fails with any less, and never gives another answer. For an accepted expression whose groups are nested k deep that is between 2(k+1) and 5(k+1)+3 calls: at most 13 with overflow checks, at most 40008 within the length limit; without overflow checks no stack is enough for every expression the parser accepts, and 8000 groups in one another compile.", "quantifier": "every tree, visitor, build state, stack size, build and expression", "why_tests_cant": "a test overflows the stack or does not; the statement gives the exact need of every tree and the reach of every text", "anchors": ["src/parser/component.rs:walk_component", "src/parser/component.rs:note_positions", "src/parser/component_sequence.rs:walk_component_sequence", "src/parser/component_sequence.rs:note_positions", "src/parser/component_alternation.rs:walk_component_alternation", "src/parser/component_class.rs:walk_component_class"]}
{"id": "C85", "title": "Options are sets, and their Debug text determines them", "statement": "A value of `Flags` that safe code can make has no bits but those of the eleven options: the constants, empty, all, from_bits and from_bits_truncate give such values, and |, &, ^, -, !, set, extend and their named forms keep to them. On them the operators are those of sets of options, contains, intersects, is_empty and is_all are the tests of sets, equality is equality of sets, and every set of options is a union of constants. from_bits fails exactly on other bits. The larger of two values has the last option in which they differ. The Debug text of a value is the names of its options in the order of declaration, each once, with ' | ' in between, then the other bits in hexadecimal, or '(empty)'; no two values have the same text, and a value with only options is written in one way.", "quantifier": "all 16-bit values; all lists of values", "why_tests_cant": "65536 values and all pairs of them under every operator; reading a text back in one way is a statement about all texts", "anchors": ["src/lib.rs:Flags"]}
{"id": "C86", "title": "Text is never cut inside a character, and bytes and characters agree", "statement": "On the UTF-8 bytes of a text, decoding gives its characters and their offsets, no two texts have the same bytes, and slicing at an offset works exactly when it is between two characters or at an end, giving the text before or after it. Parsing and compiling the bytes, with every slice checked as Rust checks it, gives the same tree, database, panic and error as the account by characters, the error's message being the bytes of that account's message; no parse ever panics because of a slice, and every message is valid UTF-8.", "quantifier": "every text of Unicode scalar values, list of expressions, options, ids, mode, configuration and build", "why_tests_cant": "a wrong offset shows only for texts with multi-byte characters at the places concerned; the statement is about all texts", "anchors": ["src/parser/control_verbs.rs:control_verb", "src/parser/control_verbs.rs:read_control_verbs", "src/parser.rs:main", "src/parser.rs:take_any", "src/parser.rs:parse", "src/compiler.rs:add_expression"]}
{"id": "C87", "title": "Graphs stored as petgraph stores them are the nodes and edges they were given", "statement": "petgraph keeps a vector of nodes and a vector of edges, with the first edge of a node's two lists in the node and the next ones in the edges. After any history of new nodes, new edges (loops and parallel edges included) and changed weights, a node has the weight it was given and changed to, the outgoing and the incoming neighbours are the ends of exactly its edges, once per edge, the newest first, and find_edge gives the newest edge between two nodes or none when there is none. A history goes through exactly when every edge and change names existing nodes and there are at most 2^32 - 1 nodes and edges; otherwise it panics. The iterators end. The graph holder and the literal trie on top of it do what they do with plain lists of nodes and edges.", "quantifier": "every history of changes, every node; every sequence of literals put into a trie; every holder", "why_tests_cant": "linked lists go wrong for particular sequences of loops and parallel edges; the statement is about all histories", "anchors": ["src/nfagraph/ng_holder.rs:new", "src/nfagraph/ng_holder.rs:all_reports", "src/nfagraph/ng_holder.rs:is_vacuous", "src/smallwrite/smallwrite_build.rs:add_to_trie"]}
{"id": "C88", "title": "The case flags of a literal are the ones pushed, in the words that keep them", "statement": "bit-vec keeps the flags in 32-bit words with a count of the bits in use. After any sequence of pushes the words are the bits cut into groups of 32, least significant first, the unused bits of the last word clear; every bit reads back as pushed and none is read past the end; any tells whether a true was pushed; comparing two such vectors never panics and gives the dictionary order of the bits, false before true and a prefix before what extends it. A push panics exactly when the count would no longer fit a usize. Every function of a literal (length, emptiness, any_nocase, iteration, mixed_sensitivity, equality, order) gives over the words what it gives over plain lists of bytes and flags.", "quantifier": "every sequence of pushes, every index, every pair of literals, 32- and 64-bit targets", "why_tests_cant": "wrong word or bit arithmetic shows only at lengths around multiples of 32 and for particular bits; the statement is about all sequences", "anchors": ["src/util/ue2string.rs:push", "src/util/ue2string.rs:next", "src/util/ue2string.rs:any_nocase", "src/util/ue2string.rs:cmp"]}
{"id": "C89", "title": "The Debug text of a parse tree determines it", "statement": "The text {:?} gives for a parse tree is, written out by the shape of the tree, the names of the variants, structs and fields in the order of their declaration, with its numbers in decimal, its names as string literals, its lists in square brackets and its options as None or Some; the text {:#?} gives is the outline of the same values, one to a line, four spaces deeper inside each bracket, empty lists as []. Each text is that of one tree only, whichever characters the printer escapes: two trees with the same one-line text are equal, and so are two trees with the same outline. So two case-sensitive expressions whose trees print alike have the same body. The same holds of the texts of character classes, modes, depths and outputs, and the texts of errors (C81) are by the same printer.", "quantifier": "every tree, every choice of escaped characters, every pair of accepted case-sensitive expressions", "why_tests_cant": "that no two trees print alike is a statement about all pairs of trees, with any nesting and any group names", "anchors": ["src/parser/component.rs:Component", "src/parser/component_sequence.rs:ComponentSequence", "src/parser/component_alternation.rs:ComponentAlternation", "src/parser/ascii_component_class.rs:AsciiComponentClass", "src/util/charreach.rs:CharReach", "src/util/bitfield.rs:BitField256"]}
{"id": "C90", "title": "The text of the utility files computes what the model says it computes", "statement": "The text of bitfield.rs, charreach.rs, compare.rs, ue2common.rs, unicode_def.rs and dump_charclass.rs, copied without the tests, is read as Rust and run statement by statement: literals with the types the compiler gives them, checked or wrapping arithmetic as the build has it, indexing and assertions that panic, loops, early returns, ? and &mut arguments. Every constant and function of the six files, called on any arguments of its types, gives the result the model's definition gives, the same panic or the same endless loop, and leaves the same values behind its &mut arguments; the run never meets a construct it has no rule for. (The rounding helpers are for every T but u8; a String is the writer of the describing functions.)", "quantifier": "every build, every value of the arguments, every class, every slice of bytes, every writer contents; every number of loop turns and nested calls allowed beyond those needed", "why_tests_cant": "that a hand-written model and a program text agree on all inputs, panics and endless loops included, is not a finite check", "anchors": ["src/util/bitfield.rs:BitField256", "src/util/charreach.rs:CharReach", "src/util/charreach.rs:make_caseless", "src/util/charreach.rs:make_and_cmp_mask", "src/util/compare.rs:mytolower", "src/util/ue2common.rs:round_up_n", "src/util/unicode_def.rs:UTF_CONT_MAX", "src/util/dump_charclass.rs:describe_class"]}
{"id": "C91", "title": "Run as it is written, the class code computes sets of bytes", "statement": "Running the text of charreach.rs and bitfield.rs, with no model of its functions in between: set, reset, flip, set_all, reset_all, flip_all, set_bytes and from_bytes, from_char and dot, set_range and from_range (which panic when the ends are swapped) and the operators change exactly the members they should; test, find_first, find_last, find_next, find_nth, count, none, any and all answer by the members; make_caseless adds exactly the other cases of letters; the predicates hold exactly of the classes they describe; make_and_cmp_mask gives the tightest mask every member passes; fill_bitvector sets a byte to 1 or 0 as one of its eight codes is a member or none is, panics for a short buffer and, with overflow checks, for a class with a member whose bit 3 is set. Running the text of compare.rs maps exactly the 26 letters. Running the text of describe_class writes the specified description of the class, or panics by overflow with overflow checks and never ends without, exactly where that description does not exist.", "quantifier": "every build, every class, every byte, every slice of bytes", "why_tests_cant": "the claims are about all 2^256 classes", "anchors": ["src/util/charreach.rs:CharReach", "src/util/bitfield.rs:BitField256", "src/util/compare.rs:mytoupper", "src/util/dump_charclass.rs:describe_class"]}
{"id": "C92", "title": "The text of the parser computes what the model says it computes", "statement": "The text of parser.rs, compile_error.rs and of parser_util.rs, ascii_component_class.rs, component_class.rs, component_alternation.rs, component_sequence.rs, component.rs and control_verbs.rs, copied without the tests, is read as Rust and run statement by statement. CompileError's new, with_index, set_expression_index and fmt; the making of classes and literals; append, add_alternation, finalize, add_component and the two From conversions; control_verb and read_control_verbs; ExprState::new, add_literal, take_any, Context's new, push_sequence, pop_sequence, enter_capturing_group, exit_group, main and parse; and parse itself: each, called on any arguments of its types, gives the value, the error or the panic the model's definition gives and leaves the same values behind its &mut arguments, a context or sequence unchanged where it returns an error; the run never meets a construct it has no rule for. (Not related: ParseMode::new, the visitors, note_positions.)", "quantifier": "every build, every pattern, every mode, every context, sequence, class and error; every number of loop turns and nested calls allowed beyond those needed", "why_tests_cant": "that a hand-written model and a program text agree on all patterns, panics included, is not a finite check", "anchors": ["src/parser.rs:parse", "src/parser.rs:Context", "src/parser/control_verbs.rs:read_control_verbs", "src/parser/component_sequence.rs:ComponentSequence", "src/parser/component_class.rs:ComponentClass", "src/util/compile_error.rs:CompileError"]}
{"id": "C93", "title": "Run as it is written, parse accepts exactly the grammar and fails exactly as specified", "statement": "Running the text of parse, with no model of its functions in between: it returns a tree exactly for the patterns of the grammar (after accepted control verbs; with overflow checks, those without a group behind the first character), the tree being that of the derivation and matching the language of the expression; it returns 'Unmatched parentheses' exactly for a closing parenthesis too many and the missing-parenthesis error exactly when one is missing; a verb that is not accepted is rejected with the error that names it as unsupported or unknown; it panics on an assertion exactly when it reaches a character that is not ASCII and by overflow exactly when it reaches a group behind the first character, with overflow checks; nothing else happens, and every run ends.", "quantifier": "every build, every pattern, every mode", "why_tests_cant": "the claim is about all patterns, and about the absence of any other outcome", "anchors": ["src/parser.rs:parse", "src/parser.rs:Context", "src/parser/control_verbs.rs:read_control_verbs"]}
{"id": "C94", "title": "The text of the functions below compile computes what the model says it computes", "statement": "The text of thirty further files (with those of C90 and C92 the whole of the crate's code outside its tests), copied without the tests, is read as Rust, and these functions are run statement by statement: the constants of Flags and PosFlags and contains, |, & and ! on them; Mode's is_streaming, is_vectored and som_precision; Grey::default; CompileContext::new; Depth's constants, infinity, its two try_from, eq, cmp and partial_cmp; make_e_callback, make_som_relative_callback, ExternalReportInfo::new, ReportManager's new, num_reports, get_internal_id, register_ext_report and get_exhaustible_key; Ue2Literal's len, is_empty, any_nocase, iter, into_iter, push, eq, cmp and partial_cmp, the iterator's next, mixed_sensitivity; is_pure_floating, is_single_outfix, pick_runtime_impl, RoseBuild's add, build_final_engine and build_rose; Database::new, get_bytecode, init_som_state, rose_block_exec, raw_block_exec, pure_literal_block_exec, single_outfix_block_exec and scan. Each, called on any arguments of its types, gives the value, the error or the panic the model's definition gives and leaves the same values behind its &mut arguments.", "quantifier": "every build, every value of the argument types (literals shorter than usize counts; a report manager together with the grey box it was made from); every number of loop turns and nested calls allowed beyond those needed", "why_tests_cant": "that a hand-written model and a program text agree on all arguments, panics included, is not a finite check", "anchors": ["src/lib.rs:Flags", "src/lib.rs:Mode", "src/util/depth.rs:Depth", "src/util/report_manager.rs:ReportManager", "src/util/ue2string.rs:Ue2Literal", "src/util/ue2string.rs:mixed_sensitivity", "src/rose/rose_build_bytecode.rs:pick_runtime_impl", "src/runtime.rs:scan"]}
{"id": "C95", "title": "The text of the small-write builder and of Ng computes what the model says it computes", "statement": "The text of smallwrite_build.rs, ng.rs and ParseMode::new, read as Rust and run statement by statement: LitTrieVertexProps::with_byte and default, LitTrie's default, is_empty and all_reports, MAX_TRIE_VERTICES, SmallWriteBuild::new and add_literal, add_to_trie; ParseMode::new, Ng::new, add_graph and add_literal. Each, called on any arguments of its types, gives the value, the error or the panic the model's definition gives and leaves the same values behind its &mut arguments.", "quantifier": "every build, every trie, builder, Ng and literal shorter than usize counts (a builder and a report manager together with the context they were made from); every number of loop turns and nested calls allowed beyond those needed", "why_tests_cant": "that a hand-written model and a program text agree on all arguments, panics included, is not a finite check", "anchors": ["src/smallwrite/smallwrite_build.rs:add_to_trie", "src/smallwrite/smallwrite_build.rs:SmallWriteBuild", "src/nfagraph/ng.rs:Ng", "src/parser/parser_util.rs:ParseMode::new"]}
{"id": "C96", "title": "The text that takes one expression to a literal computes what the model says it computes", "statement": "The text of ParsedExpression::new, of walk_component, walk_component_sequence, walk_component_alternation, walk_component_class and walk_ascii_component_class with ConstructLiteralVisitor, and of shortcut_literal, read as Rust and run statement by statement, gives on every expression, and on every tree however deep and wide, the value, the error or the panic the model's definition gives, and leaves the same Ng behind.", "quantifier": "every build, every text of an expression, flags and id; every tree, visitor state and Ng (whose report manager and small-write builder were made from its context), the literal of the tree shorter than usize counts; every number of loop turns and nested calls allowed beyond those needed", "why_tests_cant": "trees nest without bound, and agreement of a model and a program text on all of them is not a finite check", "anchors": ["src/compiler.rs:ParsedExpression::new", "src/parser/component.rs:walk_component", "src/parser/component_sequence.rs:walk_component_sequence", "src/parser/shortcut_literal.rs:ConstructLiteralVisitor", "src/parser/shortcut_literal.rs:shortcut_literal"]}
{"id": "C97", "title": "The text of the graph builders and of note_positions computes what the model says it computes", "statement": "The text of ng_holder.rs (new, add_vertex, num_vertices, indexing), ng_builder.rs (NfaBuilder::new, make_nfa_builder, make_position, add_vertex, the special vertices, num_vertices, get_graph, get_assert_flag, add_char_reach), of make_glushkov_build_state for the builder of an expression, of note_positions of AsciiComponentClass, ComponentClass, ComponentSequence, ComponentAlternation and Component, and of build_graph, read as Rust and run statement by statement, gives on any arguments the value or the panic the model's definition gives and leaves the same values behind its &mut arguments; for note_positions on every tree however deep and wide. The same holds of the functions compile does not call, or calls on a new graph only: is_vacuous, which is true exactly if an edge leads from a start vertex straight to an accept vertex, all_reports of a graph, filter_edges, connect_successors, connect_regions, and make_glushkov_build_state for any builder whose accept vertex is not its start-dotstar vertex.", "quantifier": "every build, every graph, builder, build state, vertex, class and tree; every number of loop turns and nested calls allowed beyond those needed", "why_tests_cant": "trees nest without bound, and agreement of a model and a program text on all of them is not a finite check", "anchors": ["src/nfagraph/ng_holder.rs:NgHolder", "src/nfagraph/ng_builder.rs:NfaBuilder", "src/parser/build_state.rs:make_glushkov_build_state", "src/parser/component.rs:note_positions", "src/compiler.rs:build_graph"]}
{"id": "C98", "title": "The text of compile computes what the model says it computes", "statement": "The text of add_expression, generate_rose_engine, db_create, build, compile_multi_int, compile_multi and compile, and of everything they call, read as Rust and run statement by statement, gives on every set of expressions, flags and ids (the lists of any lengths), every mode and every configuration the database, the error or the panic the model's definition gives.", "quantifier": "every build, every list of expressions, flags and ids, every mode, every Grey whose pattern-length limit is a usize; every number of loop turns and nested calls allowed beyond those needed", "why_tests_cant": "that a hand-written model and a program text agree on all arguments, panics included, is not a finite check", "anchors": ["src/lib.rs:compile", "src/lib.rs:compile_multi", "src/lib.rs:compile_multi_int", "src/compiler.rs:add_expression", "src/compiler.rs:build"]}
{"id": "C99", "title": "What the text of compile_multi comes to, stated without the model", "statement": "The text of compile_multi, read as Rust and run, comes to exactly one thing for each input: a database, an error or a panic, never stuck and never running forever. It comes to a database exactly when the set is non-empty, has at most 8000000 expressions and every one of them is acceptable and they agree with one another; an error with an index names the first expression that does not fit; an error without one is about the whole set; without overflow checks and debug assertions no ASCII set panics; and the text of compile gives what the text of compile_multi gives for the set of one with id 0.", "quantifier": "every build, every list of expressions, flags and ids, every mode", "why_tests_cant": "the inputs are unbounded and the claim is about every execution of the program text", "anchors": ["src/lib.rs:compile_multi", "src/lib.rs:compile"]}
