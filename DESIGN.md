# Formal model of msk/rescan in Rocq (Coq 8.16.1)

## Approach

The crate (about 2,200 non-test lines of Rust) is small enough to be modelled function by function.
The model is a set of total, computable Gallina functions (`rocq/theories/Model*.v`); specifications
that do not use the model's helpers are in `Spec*.v`; lemmas are in `Proof*.v`; the theorems named in
`MANIFEST.json` are in `Prop*.v`, with `Print Assumptions` for each at the end of its file.

Conventions of the model:

* A Rust computation that may panic or loop is of type `outcome A := Ret a | Panic why | Diverge`.
  `Result<T, E>` stays data: `result E T := ROk t | RErr e`.
* The build profile is a parameter `p : profile` with two independent switches, overflow checks and
  debug assertions, and the pointer width of the target. `dev` has both, `release` none, on a 64-bit target; `dev32` and
  `release32` are the same on a 32-bit one. Theorems about all `p` hold for both widths.
  Every `+ - << *` on machine integers in the code goes through `chk_add`, `chk_sub`, `chk_shl`, `chk_mul`, which panic or wrap according to `p`.
* `u8/u16/u32/u64/usize` are `N`; `usize` has the width of the target's pointers, 32 or 64 bits (`usize_bits p`).
  Value ranges are hypotheses (`c < 256`), wrap-around is written out. Vec/slice lengths are `nat`.
* `&str` is a list of Unicode scalar values; `.len()` is the UTF-8 byte length. C86 shows that working on the bytes, with
  Rust's check that slices start and end between characters, gives the same results.
* Array/Vec/graph indexing, `expect`, `unwrap`, `assert!`, `unimplemented!` are explicit `Panic`s.
* `while` loops without a structural measure run on fuel and give `Diverge` when it is exhausted; theorems
  show that the fuel supplied is enough, or (for the one loop that really diverges) that none is.
* `HashMap`/`BTreeMap`/`HashSet` are association lists / duplicate-free lists, used only through
  operations whose result does not depend on iteration order, but for the one of C79.
* petgraph's `Graph` is a node list plus an edge list in insertion order; neighbour iteration is newest edge
  first, `add_node`/`add_edge` panic at the 2^32-1 index limit as petgraph does. C87 derives this from the linked lists
  petgraph keeps.
* nom's `char`, `tag`, `is_not`, `take`, `delimited` (complete versions on `&str`) are modelled by their
  documented behaviour.

## Plan per property

| id | what is modelled | how it is proved |
|----|------------------|------------------|
| C01 | whole compile pipeline (lib, compiler, parser, shortcut literal, Ng, report manager, small-write) | invariant on the Ng state over the list of expressions + parser correctness, gives an iff with a specification over strings |
| C02 | same | same invariant; first failing index |
| C03 | same | witness (refutation) + theorem that only the zipped prefix and the count matter |
| C04 | same | corollary of an exact per-expression verdict |
| C05 | same, release profile | no-panic corollary of the verdict theorem |
| C06 | same, overflow checks | witness + exact condition from the parser simulation |
| C07 | parser, verbs | parser simulation |
| C08 | pipeline | corollary of C01 |
| C09-C11 | report manager, error type, pipeline | positive theorem for literals, witnesses for the rest |
| C12-C17 | parser | simulation of the parser by a grammar zipper; print/parse round trip; language by induction |
| C18-C20 | control verbs | case analysis against a string-level specification |
| C21-C30 | BitField256, CharReach | bit-level lemmas on N.testbit lifted to an abstract set of bytes; loops by induction |
| C31-C34 | literal type, visitor | induction over trees, literals |
| C35-C38 | report manager | invariants over request histories; exactly which histories run out of numbers |
| C39-C42 | literal trie, small-write builder | trie invariant over insertion histories; exactly which ones run out of nodes |
| C43-C44 | NgHolder, NfaBuilder, note_positions | induction over trees; arbitrary graphs for the queries |
| C45-C47 | Ng, Rose build, runtime | corollaries of pipeline invariants |
| C48-C49 | ue2common, depth | arithmetic |
| C50-C51 | dump code (test-only helper of the crate) | finite sweep for bytes, induction for trees, witnesses |
| C52 | walker | trace semantics for arbitrary visitors |
| C53-C54 | Glushkov build state | list reasoning, witness |
| C55-C57 | whole compile pipeline, the engine state just before the database is made | pipeline invariant combined with the trie and report manager theorems |
| C58-C60 | parser, tree, language of trees | the derivation of the joined text is built from the derivations of the parts; induction on derivations for case variants and counts |
| C61 | error values and their text, decimal output | cases of the compile call; splitting at the last space |
| C62 | parser, trees | induction on derivations |
| C63 | modes, whole compile pipeline | the relational account of a run does not mention the mode |
| C64 | `SmallWriteBuild::add_expression` (not called by the crate), holder queries | case analysis with C44 |
| C65 | `compare.rs` | arithmetic |
| C66 | `Ng::add_literal` with any `Grey`, any history | invariant over registered requests (`hist_inv`), independent answer relation |
| C67 | `compile_multi_int` with any `Grey` of `usize` limits | same run relation as C01, parametrised by the configuration; determinism |
| C68 | two accepted calls with the same items | via C45, C55, C57 characterisations of the engine; permutation of contributions |
| C69 | `parse`, `add_expression`, whole call, texts differing in case | simulation of the reading loop on two texts |
| C70 | `parse` of a text and of its continuations | exhaustive outcome relation `parse_outcome`, closed under appending |
| C71 | every function that takes the build profile, in two builds | the relation "same or a failed check" is a congruence for sequencing; induction on loops and trees |
| C72 | options, parse modes, `ParsedExpression::new`, whole call | bit lemmas; trees depend on CASELESS only; induction over the set |
| C73 | `NfaBuilder`, `NgHolder` | invariant over request histories |
| C74 | whole call, dictionaries against the language of the texts | C55 and C31 composed; literals against the grammar |
| C75 | whole call on a set and its continuation | histories of contributions split at the end of the shorter set |
| C76 | whole call against a reference function (`SpecReference.v`) | simulation of the reading loop by a one-pass reader with a list of open positions; the run relation of C01 against a list of literals seen |
| C77 | the pointer inside the pinned engine builder (`ModelPinned.v`, `SpecPinned.v`) | simulation of a heap of boxes by a list of values; the invariant that every live box points to itself |
| C78 | whole call on two targets | the reference functions of C76 for the two targets run side by side |
| C79 | the one early exit from a run through a hash set (`ModelHash.v`) | set of possible outcomes over all permutations; invariant of report tables over sequences of calls |
| C80 | dumps with the writer as a parameter (`ModelWriter.v`) | the pieces offered, independent of the writer, by induction over the tree; the first refusal ends the dump |
| C81 | the derived `Debug` texts of `CompileError` and `ErrorKind` (`ModelDebug.v`) | string literals are prefix-free and stand for one string; table of the reasons the crate gives |
| C82 | the functions with a `# Panics` section | exact panic conditions; a history of 2^32 requests by induction on its length |
| C83 | classes of characters beyond ASCII, which no parse builds | set semantics of sequences of additions |
| C84 | the recursive walks, on a stack of limited depth (`ModelStack.v`) | the same functions with a budget of calls; exact need by tree induction |
| C85 | the rest of the interface of `Flags`, which bitflags 1 generates (`ModelFlags.v`) | bits as sets; the text as an inductive reading with words in ascending order |
| C86 | the text handling of parser and compiler on UTF-8 bytes: `str`'s decoding, boundaries and slices, nom's combinators (`ModelBytes.v`) | UTF-8 by division as RFC 3629 has it; simulation by the account on characters |
| C87 | petgraph's vectors of nodes and edges with their linked lists, its iterators, the holder and the trie on top (`ModelAdjacency.v`) | invariant: the lists from a node run through its edges, newest first; projection to the plain graph model |
| C88 | bit-vec's words and count, its `push`, `set`, `get`, `any`, `cmp`, and the literal functions on top (`ModelBitVec.v`) | invariant: bit `j` of word `k` is bit `32 k + j` pushed, unused bits clear; projection to the plain literal |
| C89 | the derived `Debug` texts of parse trees, classes, modes, depths (`ModelFmt.v`: `std`'s builders `debug_struct`, `debug_tuple`, `debug_list` and the indenting writer) | texts as an inductive relation, outline as lines; prefix-freeness of values by induction |
| C90-C91 | the text of six files of `src/util` itself (`ModelSource.v`), a lexer and parser (`ModelRust.v`) and an interpreter (`ModelInterp.v`) for the fragment of Rust they use | symbolic execution of the parsed bodies, induction over the turns of loops; C91 composes the runs with C21-C28, C50, C65 |
| C92-C93 | the text of the parser: `compile_error.rs`, `parser.rs` and the seven files of `src/parser` that `parse` uses, run by the same interpreter | as for C90, with induction over the characters left for the parser's loop; C93 composes the run of `parse` with C06, C07, C12-C14, C16, C18 |
| C94 | the text of thirty more files, which with the fifteen above make up the crate's code; of these, the functions of flags, modes, depths, reports, literals, the rose builder and the runtime | as for C90 |
| C95 | the text of the small-write builder, `Ng` and `ParseMode::new` | as for C90 |
| C96 | the text of `ParsedExpression::new`, of the walk of `ConstructLiteralVisitor` over any tree and of `shortcut_literal` | as for C90 |
| C97 | the text of `NgHolder`, `NfaBuilder`, `GlushkovBuildState` (its `connect_*` and `filter_edges` too), `note_positions` and `build_graph` | as for C90, with induction over the tree |
| C98-C99 | the text of `add_expression`, `build`, `compile_multi_int`, `compile_multi` and `compile`, and so of everything `compile` calls | as for C90, with induction over the set; C99 composes the run of `compile_multi` with C01, C02, C04, C05 |

No property is "not applicable". A property whose full statement is false of the code has a theorem ending in
`_refuted` (a witness) and theorems ending in `_partial` saying exactly what holds instead; its manifest status is
"partial" and the note says why.

## Files

| files | contents |
|-------|----------|
| `Base.v` | outcomes, profiles, checked machine arithmetic, strings, decimal and hexadecimal output |
| `Model*.v` | the code; every definition cites the lines it models |
| `Spec*.v` | what the properties mean: sets of bytes, grammar and language of expressions, histories of requests, trees of words, what a call's arguments say, an independent reader for dumped classes (C50), a reference function for whole calls (C76), boxes without pointers (C77), what a target may change (C78) |
| `Proof*.v` | lemmas |
| `Prop*.v` | the theorems `Cxx_...` listed in `MANIFEST.json`, a concrete case `Cxx_case` beside them, `Print Assumptions` at the end |
| `Tests.v` | the crate's 45 unit tests transcribed by hand and run on the model |

## Trusted base

* The kernel of Coq 8.16.1 (including its `vm_compute` reduction machine, used for concrete cases and finite sweeps
  over the 256 bytes).
* Axioms: none. `Print Assumptions` prints "Closed under the global context" for every theorem in `MANIFEST.json`.
  Loading the standard library's `ssreflect` support makes `coqchk -o` list the seven fields of
  `Coq.ssr.ssrunder.Under_rel`; they come from a sealed module of the standard library and no theorem uses them.
* The reading of the Rust source into Gallina. No Rust was compiled or run. As a check on the reading, `Tests.v`
  transcribes the 45 unit tests under `src/`, and all pass on the model, with and without checks (the two longest
  sweeps, `caseless_all` and `set_range` of charreach.rs, shown from the theorems about sets instead of run). This compares the model with what the
  developers wrote down, not with a run of the crate, and 36 of the 45 concern only the bit field and the character
  class. `crosscheck/` holds a second reading of the same source in Python, written from the Rust text, and
  `crosscheck/compare.py`, which evaluates both readings on random inputs (sets of bytes, class descriptions, patterns,
  lists of patterns with their builder state, connecting positions, rounding, literals). On some 18000 inputs in six
  build profiles they agreed on every value, error text and panic. Both readings are by the same reader.
* The reading is itself checked for part of the code (C90, C92, C94-C98): `ModelSource.v` holds the text of 45 files, character by
  character up to the tests (`python3 crosscheck/texts.py /repo` compares), and the theorems relate the model to a run of that text. What
  is trusted there instead is the meaning of the language: the lexer and parser of `ModelRust.v` and the interpreter of
  `ModelInterp.v`. They cover what these files use: `u8` to `u64` and `usize`, `bool`, `char`, strings, arrays, slices, vectors, tuples, structs, enums, `Option`,
  `Result`; `impl` blocks, trait operators, `From`, constants, struct update; `let`, assignments, `if`, `if let`, `match`, `while`, `while let`, `loop`,
  `for`, `break`, `continue`, `return`, `?`; the methods of `std` the files call (`count_ones`, `trailing_zeros`,
  `leading_zeros`, `wrapping_add`, `iter`, `enumerate`, `rev`, `contains`, `len`, `is_empty`, `last`, `push`, `pop`, `next`, `take`, `is_some`, `is_none`, `unwrap`, `expect`, `map` on an `Option`,
  `into`, `chars`, `starts_with`, `is_ascii`, `mem::swap`, `write_str`, `write_char`, `write!`, `format!`) and nom's `char`, `tag`, `is_not`, `take` and `delimited`; everything else is stuck. References are values, a
  `&mut` argument is copied in and back (Rust forbids the aliases that would tell the difference). `let x = e.as_mut().expect(..)`
  leaves a mark in `e` until the block ends, and every use of the mark is stuck; other `let`s of `&mut` are stuck. What a `match` on a place binds is written back into it. Types are not
  inferred in general: an unsuffixed literal takes the type of what it is combined with or declared as (a variable, parameter, field or result), and
  the places where the compiler infers it from a later use are listed (`inferred`). A `.into()` makes of a value of the program what the one `From` taking its type makes of it. Generic parameters and bounds,
  attributes, visibility, `use`, doc comments and derived traits are read and ignored. Strings are lists of characters and lengths are those of their UTF-8.
  The files of the compiler add: associated types and `type` names (`aliases`), the types `try_into` is used at (`targets`, listed like `inferred`),
  structs that hold a `&mut` (`lent_out`, listed: the loan is written back where it ends), `bitflags!` (a struct of `bits`, its constants, `contains`, `is_empty`, `|`, `&`, `!`),
  `HashMap` and `HashSet` as lists in the order of insertion, petgraph's `Graph` as a list of weights and a list of edges, `BitVec` as a list of `bool`s,
  `Pin<Box<T>>` as `T`, `NonNull` as a value nothing is done with, closures applied where they are written, trait objects by the name of the struct, `for` over a type that has `next` in the text.
  Read but not related to the model are, among the 45 files, functions `compile` does not call: the other visitors and `SmallWriteBuild::add_expression`. `GlushkovBuildState::new` is related for builders whose accept vertex is not their start-dotstar vertex.
* The modelled behaviour of the libraries: `std` (integers, slices, `Vec`, `String`, `fmt` of integers, `HashMap`,
  `HashSet`, `BTreeMap`, `min`), nom 6 (`tag`, `char`, `is_not`, `take`, `delimited`, complete versions), petgraph
  (`Graph` with `u32` indices: `add_node`, `add_edge`, indexing, `neighbors_directed`, `find_edge`, `node_count`),
  bit-vec 0.6 (`push`, `get`, `any`, comparison), bitflags 1 (`contains`, `!`, and for C85 the other safe functions and `{:?}`), itertools (`izip!`). For petgraph, bit-vec and
  slices of `str` the data structures themselves are modelled and the plain accounts derived from them (C87, C88, C86);
  these models too are written from knowledge of the libraries, whose source is not in the sandbox.

### What is modelled

Every non-test function of every file under `src/`:
`lib.rs` (modes, flags, `compile`, `compile_multi`, `compile_multi_int`), `compiler.rs`, `compiler/expression_info.rs`,
`database.rs`, `grey.rs`, `som.rs`, `scratch.rs`, `runtime.rs`, `rose/*` (engine, resources, choice of runtime),
`parser.rs` and `parser/*` (context, sequences, alternations, classes, control verbs, visitors, shortcut literals,
Glushkov build state, tree dump, prefilter), `nfagraph/*` (holder, builder, `Ng`), `smallwrite/*`,
`util/*` (bit field, character class, class dump, literals, case helpers, rounding helpers, depth, errors, reports,
report manager, boundary reports).

### What is not modelled

* Memory: allocation failure, capacity, bytes of stack (C84 counts calls) and the recursion of dropping a tree, drop order, moves (except C77).
* Aliasing: the raw pointer from `SmallWriteBuild` to the report manager inside the pinned `Ng` (`ng.rs:51-57`) is
  modelled as an address (`ModelPinned.v`, C77), so that dangling and stale pointers show. Whether the shared pointer
  may coexist with later mutation through `&mut Ng` is a question of Rust's aliasing rules outside the model; the only
  code that dereferences it, `SmallWriteBuild::add_expression`, is never called by the crate.
* `Scratch`'s `*mut u8` is an address that nothing dereferences.
* Hashing. Hash sets are lists in some order; C79 covers the one place where the order could show.
* Threads. Writers that panic, or whose answer depends on anything but their own state (C80).
* Targets with 16-bit pointers. On 32-bit targets petgraph leaves out the check that a graph has fewer than 2^32 - 1
  nodes and edges; the model makes it there too, as a vector of that many cannot exist there.
* Values of type `u8/u16/u32/usize` are unbounded `N` with the range as a hypothesis where it matters.

## Findings (behaviour of the code the theorems establish)

* `Context::push_sequence` subtracts the lengths the wrong way round: any group not opened by the first character
  panics with overflow checks and yields a wrong index without (C06, C17).
* `add_literal` asserts that characters are ASCII: non-ASCII input panics instead of giving an error (C07).
* `compile_multi` silently skips expressions beyond the shorter of the flag and id slices (C03).
* A SINGLEMATCH conflict panics with debug assertions, because the error already has an index (C11); its message says
  the opposite of what the earlier expression specified (C10); expressions that are not literals never register
  their id, so their conflicts go unnoticed (C09).
* Wrapping an accepted expression that begins with `*` in parentheses makes a control verb: it is rejected, or, for
  `*UCP`, accepted with another meaning (C58).
* `Unmatched parentheses` is of kind LocatedParse without a location (C20).
* A `Report` keeps none of its fields, so all match ids share internal report 0 (C38).
* The horizon of `Stream(Some(_))` and the SOM flags have no effect; `scan` does nothing (C46, C47).
* `filter_edges` inverts the epsilon test (C54); no accept edges are built, so no graph is ever vacuous (C44).
* `describe_class` drops the highest range unless it ends at 0xff, and overflows or loops for a short range ending at
  0xff (C50); `{:2x}` pads with a space, not a zero.
* Parsed expressions are walked recursively; without overflow checks 8000 groups in one another are accepted and take at least 16002 calls (C84).
* `describe_range` documents a panic for `c1 > c2` that only overflow checks produce (C82).
* The rounding helpers mask with eight bits (C48); `fill_bitvector` shifts by `c & 8` (C29); literal `==` ignores the
  case flags that `cmp` compares (C34).

## Mutation tests

`seeded/LOG.jsonl` has one line per attempt: the definition edited in a scratch copy, the edit, the claim it makes
false, the theorems that no longer prove, and the theorems tightened or added as a result. "Failed" theorems are
those whose proof, or the proof of a lemma they rest on, no longer goes through after the edit. A failing proof only
shows that the script is tied to the definition, so most attempts also (or instead) carry `statements_refuted`: in a
copy with every proof left out, `False` was derived from the edited definitions and that one theorem's statement, at a
concrete instance, with `Print Assumptions` listing nothing else. For attempts without a full rebuild the two lists
are the same.
