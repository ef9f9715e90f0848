# Formal model of uwe-app/bracket in Rocq (Coq 8.16.1)

## 1. Approach

* The library is a pure pipeline: source text → tokens (`src/lexer.rs`) → AST (`src/parser/*`) → rendered chunks
  (`src/render/*`, `src/helper/*`), driven by a registry (`src/registry.rs`, `src/template.rs`).  Each stage is a computable
  Gallina function in `rocq/theories/`; every definition of the model cites the file and lines it models.
* Text is `list N` (Unicode scalar values) with UTF-8 byte lengths (`clen`, `blen`).  Spans are byte offsets as in the code.
  Rust slicing is the partial function `slice`; `None` is the Rust panic.
* Parser results are `POk | PErr | PPanic | PFuel`, render results `ROk | RErr | RPanic | RFuel`.  Panics and fuel exhaustion are
  separate constructors, never ordinary values, and separate theorems say when they can(not) occur
  (C05, C39: fuel never runs out for a computable bound; C10, C53: reasons for panics).
* Loops over the token stream are structural recursion or fuelled with a proved bound.  The mutual recursion of the renderer
  (`render_node`/`call`/`statement`/helpers) is tied by an explicit knot `tie : nat -> knot`, so the induction over nesting depth is an
  induction over a natural number.
* Custom helpers, an open `dyn Helper` in the code, are programs of the inductive type `hprog` over the renderer's public
  API: the built-ins are literally such programs and the theorems quantify over *all* helpers of that type.
* Specifications (`Spec_*.v`) are separate small files that contain no proofs and no model helper beyond the data types and accessors.

## 2. Files (`rocq/theories/`)

| file | content |
|---|---|
| `Str`, `Json`, `Regex` | text and UTF-8 lengths; JSON values, serde_json numbers, printing; regular expressions (derivatives) |
| `Lexer`, `Ast`, `ErrInfo`, `Parser` | model of `src/lexer.rs`, `src/parser/*`, `src/error/source.rs`, `src/error/syntax.rs` |
| `Render`, `Helpers`, `Registry` | model of `src/render/*`, `src/trim.rs`, `src/json.rs`, `src/escape.rs`, `src/output.rs`, `src/helper/*`, `src/registry.rs`, `src/template.rs` |
| `Messages` | model of the values, `Display`, `Debug` and `PartialEq` of the error types |
| `Tests` | the repository's own unit tests and hand-written cases replayed on the model (tests, not proofs: they validate the model) |
| `Spec_Lexer`, `Spec_Ast` | what tokenising means (`tokenizes`, `munch`); spans, tags and pieces of a tree |
| `Spec_Values`, `Spec_Helpers`, `Spec_Render`, `Spec_Blocks`, `Spec_Calls` | numbers as rationals, JSON text, lookup relations, what block helpers do, what calls do |
| `Spec_Source` | a grammar of templates independent of the parser: a syntax tree, its printed text, all the ways to write it (any white space inside tags), which trees print unambiguously, and what an AST must carry |
| `Spec_Sem` | a big-step semantics of those trees, independent of the renderer (no spans, no trim state, no knot) |
| `Spec_Fail` | when and with which error rendering such a tree fails, after which output |
| `Spec_Messages`, `Spec_Display` | names an error is about; what nodes show |
| `Spec_Context`, `Spec_Files` | what a helper sees of its call; what loading files and directories gives |
| `Spec_Panic` | which sources, templates and helpers give the renderer no reason to panic |
| `*Facts`, `Syn*`, `Sem*`, `Fail*`, `Panic*` | lemmas |
| `Props_*` | the property theorems (names `Cnn_...`), non-vacuity examples |
| `Assumptions` | `Print Assumptions` for every property theorem |

## 3. Trusted base

* Coq 8.16.1's kernel, including `vm_compute` (used for closed computations: the repository tests, refutation witnesses, non-vacuity examples).
* `Print Assumptions` is run on every property theorem (`Assumptions.v`, generated by `tools/assumptions.py`) and answers "Closed under the global context" for each of them: no axioms at all.
  (A scan of *loaded libraries* lists the module-type fields `Coq.ssr.ssrunder.Under_rel.*`, which the standard library's `ssreflect`
  files declare; they come in with `Lia`/`ssr` and no theorem depends on them.)
* No `Axiom`, `Parameter`, section-less `Variable`, functor, module type or `Declare Module`; no `Admitted`; no kernel check switched off.
* The model itself: that the Gallina definitions say what the Rust code does.  This was established by reading; it is checked by
  `Tests.v` (the repository's unit tests replayed) but not proved.
* The tools outside Coq (`tools/*.py`) only write `MANIFEST.json` and `seeded/LOG.jsonl`.

### Oracles (universally quantified in every theorem, not axioms)

| oracle | stands for |
|---|---|
| `pe_width : chr -> nat` | `unicode_width`, used for the column in error reports |
| `pe_num : str -> option number` | serde_json's parsing of a *non-integer* number literal (integers are modelled exactly) |
| `pe_checked : bool` | integer overflow checks (debug) on or off, relevant to the `u8` count of `../` |
| `pl_fstr : spec_float -> str` | ryu printing of an f64 |
| `pl_order` | iteration order of the `HashMap` holding hash arguments; where needed assumed to be a permutation (`table`) |
| `pl_iotext : nat -> str` | the text of an I/O error; all other messages are modelled in `Messages.v` |
| `pl_links : bool` | cargo feature `links` |
| `en_write : list str -> str -> wres` | the `Output`: an arbitrary function of the history of writes (may fail, may write short) |
| `read : str -> str + nat` | the file system (`Registry::load/add/read`) |

### Modelled code

`src/lexer.rs` (all modes; `lex`, `collect`), `src/parser/*` (everything executed when compiling or linting), `src/error/source.rs` (error reports),
`src/error/{mod,render,helper,syntax}.rs` (variants, messages, equality), `src/render/{mod,scope,context,assert}.rs`, `src/trim.rs`, `src/json.rs`, `src/escape.rs`,
`src/output.rs`, all built-in helpers, `src/helper/mod.rs`, `src/template.rs`, `src/registry.rs`.

### Not modelled, and simplifications

* `logos` is modelled by its documented semantics (longest match, then priority; an error token of one character when nothing matches) on the
  regular expressions written in `src/lexer.rs`, not by its generated code.  C02 states the semantics declaratively.
* `usize` arithmetic is unbounded (no source of 2^64 bytes); the recursion depth of the Rust stack is unbounded (a stack overflow is not a modelled panic).
* Maps: `serde_json::Map` (BTreeMap) is a key-sorted association list; the registry's `HashMap`s are association lists with unique keys.
* `T: Serialize` data enters as a JSON value (`serde_json::to_value` is assumed to have succeeded); `Cow`, lifetimes, `Box` and `Rc` are erased.
* `log` records are modelled as an operation of helper programs (`HLog`, in order) that does not touch the render state; the `log` crate's filtering and sinks, `rc.registry()`, the line `Value for unknown token …` that `parser/call.rs` prints on standard output before some syntax errors, `Debug` output of the AST, `Span` accessors that only return fields, and the commented-out `stream` API are not modelled.
* Helpers are deterministic functions of their context and of the results of the calls they make; they terminate (an `hprog` is a well-founded tree). A helper that loops for ever or keeps state in cells is outside the model.
* Concurrency: the library has none; `Registry` is used through shared references only while rendering.

## 4. Properties: what is modelled and how it is proved

Lexer
* **C01** tokens tile the source — induction over the token list (`tokenizes`), from `lex_tokenizes`.
* **C02** maximal munch — the derivative matcher is proved equal to the inductive language of the expressions (`RegexFacts`), then each token is maximal and of highest priority.
* **C03** mode discipline — `tokenizes` is a relation that carries the mode; determinism by induction.
* **C04** normalised collection — induction over tokens.

Parser
* **C05** termination — measure: tokens left; every parse function consumes (`ParserFacts`, `BlockFacts`).
* **C06** plain text — instance of C54/C55 for text.
* **C07, C15, C17** spans, tiling, lines — one postcondition (`ppost`) carried through every parse function (`CallFacts` … `DocFacts`); where the code violates the claim a concrete source refutes it (`_refuted`) and the rest is `_partial`.
* **C08, C09** closing tags and else branches — invariant of the block stack (`BlockFacts`).
* **C10** panics — every panic of the model is classified; witnesses show the full claim is false. `ReportFacts` walks the whole parser with the invariant "a report can be made at the byte the parser has reached" and derives panic freedom for `Spec_Report.reportable` sources, single ASCII lines among them.
* **C11** error reports — arithmetic on line starts, for positions where the code does not panic; the rest refuted.
* **C12** lint vs compile — simulation between the two loops.
* **C13, C14, C16, C54** literals, paths, numbers, whole documents — every way of writing a well-formed tree of `Spec_Source` (any spaces, tabs and newlines inside tags) is proved to be read back by `compile` (`SynLex` … `SynBlock`); `SynLayout` shows that the printed text is one of them: lexing of each printed piece in its mode, then parsing, by induction over the tree. Path segments are names, `[…]` and quoted strings with their escapes. The grammar covers text, statements and partials with path targets and with computed targets (`{{(f x) …}}`, `{{> (f x) …}}`), every kind of argument (quoted strings, `[…]` literals, numbers, booleans, null, paths, nested calls), comments, escaped statements, links, raw blocks and blocks with any `else` chain.

Values and helpers
* **C18** escaping — induction, with a decoder as left inverse. **C27, C33, C35, C37, C51** — case analysis against independent specifications.
* **C34** comparisons — f64 values are interpreted as rationals (`Spec_Values`), `SFcompare` proved to agree.
* **C36** JSON — a reader specified independently is proved to read back the printed text; escaping through C56/C19.
* **C24–C26** lookup — independent relation over the scope stack, proved equivalent.
* **C28–C32** block helpers — `Spec_Blocks` says which bodies run under which scopes; proved by running the helper programs against the renderer equations.

Rendering
* **C38, C47, C48, C50, C52** balance, append-only output, I/O errors, hash order, buffers — unary and binary logical relations over the knot (`UnaryFacts`, `RelFacts`, `StateFacts`, `OutFacts`), by induction over fuel and over helper programs.
* **C39, C40** termination and cycle detection — lexicographic measure (call-stack budget, size of the AST) (`TermFacts`, `LimitFacts`, `CycleFacts`).
* **C41–C45** strict mode, missing values, helper resolution, local helpers, partials — equations of the renderer against `Spec_Calls`; violations refuted by concrete templates.
* **C46, C55, C19–C23, C56** — the source-level semantics of `Spec_Sem` is proved sound for the renderer on every document of the grammar (`SemFacts`, `SemItems`) by induction over the semantics; the individual claims are corollaries from source text to output text.
* **C49** registry — finite-map laws, and agreement of the entry points.
* **C53** rendering never panics — a Hoare logic `np` over the renderer monad whose precondition is that all spans read while rendering can be sliced (`PanicFacts`), established for compiled ASCII sources and for the grammar (`PanicSrc`).
* **C59** helper context — `Spec_Context` says what each accessor returns for present, null, missing and absent arguments; proved from the relations `values_of`/`remembers` of `Spec_Calls`; `raw` from C54; a path ending in a bracket refutes the full claim.
* **C60** files — `Spec_Files.loads`: an independent relation between a directory listing and the templates it gives; induction over the listing.
* **C61** file name — simulation of the parser with itself under two file names (`FileFacts`).
* **C62** settings — finite-map laws, then through C19 to the rendered text.
* **C57** equality of errors — the Rust-shaped nested error types of `Messages.v`; a complete characterisation of `==`; reflexivity refuted.
* **C58** messages — induction over the wrappers; the messages are parsed back (first apostrophes, digits) to show that they tell errors apart.
* **C63** display — `as_str`/`Display` of the AST (`Ast.v`) against the tiling of C15 and the printer of C54.
* **C64** failures — `Spec_Fail` extends the semantics of `Spec_Sem` by the judgement "writes `out`, then fails with `err` (or panics)"; `FailFacts`/`FailItems` prove it sound for the renderer by mutual induction; exclusiveness and uniqueness follow from determinism of the renderer.
* **C65** totality — `Spec_Total` says which helpers, registries and documents leave nothing open; `TotalFacts` shows that every tame document has a text or a stop in the semantics (induction on the partials not yet being rendered, then on size); with C55/C64 and determinism of the renderer this gives an equivalence between the answer of `once` and the semantics.
* **C66** layout — C54 holds for every layout of the white space inside tags, so by C65 two layouts of a document have the same answer.
* **C67** concatenation — the semantics of a list of items is sequential (`items_out_app`, `items_err_first/second`); totality (C65) turns this into a statement about the answers of `once` on the two halves and on the whole.
* **C68**, **C69** two registries — `SubFacts` is a relational induction over the renderer: two registries that differ only in templates (or only in strictness) run in lock step until one of them meets one of the errors in `bad`; `Spec_Laws.forwards` says that helpers hand these errors on. `C68_builtins_forward` shows that all standard helpers do.
* **C70**, **C71** malformed sources — `Spec_Bad` is a grammar of tags with one mistake (`bad`, `bad_tag`), of sources as lists of events (`source_of`) and the list of errors such a source has (`verdict`, a stack machine over block names, giving the kind and the notes of each error); none of it mentions tokens or the parser. `bad_path` covers mistakes inside paths (`a..b`, `a/../b`, `a.this`, `a[b]`, `a"b"`, a newline in a quoted segment, `../@b`, `.b`; proved in `BadQuote`, `BadPath`), `bad_newline` a newline in a string argument or value. `BadParse`/`BadParse2` show by induction on the derivation of `bad` that the call parser stops at the mistake with the right kind and has consumed tokens of this tag only; `BadEvents` lifts this to `advance`; `BadRun` follows `parse_loop` and `lint_loop` (and the nested `block_loop`) along the events.
* **C72** paths evaluated by a helper — `SynEval` cuts the token stream of a path followed by a blank after the path (the lexer and the path parser behave the same at the end of the input), so that the parse of a path inside a tag (`SynPath`) is also that of the path alone; then the lookup theorem of C55. The value is `path_value` of `Spec_Sem`, the one arguments have.
* **C73** exchange — `Spec_Exchange` defines "means the same" by the relations of `Spec_Sem`/`Spec_Fail` and its closure under blocks, branches and included templates; `ExchangeFacts` moves every derivation of the semantics along an exchange (mutual induction over outputs and failures, the content of `@partial-block` being exchanged too); C65 turns this into equal answers.
* **C74** spellings — by inversion of the semantics, pair by pair; the computed partial name by C65.
* **C75** the render context — `Spec_Session.v`: a big-step relation for helper programs over (scopes, local helpers, output); proved equal to the model's interpreter by induction on it, for every writer and state. `amounts`: programs that read and push/pop scopes reduce to plain writes, which carries them into C55/C64/C65.
* **C76** the place of a mistake — `Spec_Bad.mistakes` lists the mistakes of a source with the bytes where the faulty piece starts and ends; `WhereFacts.v` proves by walking the call parser that it stops with its byte inside the tokens of the call and its line advanced by the newlines read; `BadRun.v` carries this through `parse` and `lint`; `Props_Where.v` turns it into the text of the report.
* **C77** the offsets of the parser options — `Spec_Offset.lower k` adds `k` to every line number of a tree; `OffsetFacts.v` relates two runs of every parsing function from counters that differ by `k` lines (a two-run invariant, by the same recursion as the parser); rendering by C55/C64/C65, whose statements hold for any options.
* **C78** no injection — `Spec_Inject.woven`: text put together from template text and other text; induction over the derivations of the semantics (`item_out`, `item_err`), with C55/C64/C65 for the link to the code. That a helper which acts in a careful way cannot also act in another way is shown by running both programs on an empty state.
* **C79** unused helpers — a derivation of the semantics in one registry is, case by case, a derivation in the other (`UnusedFacts`); C55/C64/C65 link both to the code.
* **C80** block helpers of one's own — the semantics has steps (`hstep`: write, render the block, the selected branch, enter, change and leave a scope, stop) and rules that run them over a block; a helper *performs* steps when running it is running them; C55/C64/C65 then cover such blocks like the standard ones. The condition on `~` for blocks rendered more than once is the one of `each`; texts written between the renderings must not begin or end with white space (finding 29).
* **C81** data that is not reached — a syntactic check of the document (`item_within H N inner`: every path starts with a name of `N`, `inner` says whether `this` is still the data, `H` are the names of helpers, which no data hides) and `agree N data data'`; induction over both semantics (C55, C64) moves a derivation from one data value to the other, and C65 says there is one. Helpers must be `discreet` (never ask for the data or for a path); all built-in helpers are, by inspection of their programs.
* **C82** pieces that are never closed — two more events in `Spec_Bad`: `EvUnclosed k` (only as the last piece; the grammar `unclosed` of its texts) and `EvRaw o` (`raw_writes`: a raw block whose closing name differs). `BadEvents` follows `until` to the end of the tokens; `BadRun` and the theorems C70, C71 and C76 now cover these events too, and C82 spells out what they say. What the parser does not report (an empty `{{!` is located before the comment; tags and blocks that are never closed) is in `C82_empty_refuted` and `C70_silent_mistakes`.
* **C83** moving a part into a partial — a syntactic check of the part (`item_own r n depth`: paths other than names and `@root` stay within the `depth` scopes the part itself has opened; `n` is not included again) and induction over both semantics (C55, C64) with one more empty scope below those `depth` scopes; then C65 says one of the two derivations exists. Helpers must be `unaware` of the scopes; all built-in ones are (`C83_standard_unaware`). At any depth (`C83_inside`): `Spec_Inside.moved` relates a template to the one with the part replaced inside a block body or branch, and induction on it replaces the part in every derivation (other calls in progress, scopes and `~` flags at each level). Scope: blocks around the part are those of the standard block helpers or of variables, no partial blocks before the part (C83_inside: in the template) or in the partials, no `~` at the seams; texts that meet at a seam are one text (`glue`). `C83_conditions` shows what goes wrong with `this`, `@index` and `../`.
* **C84** templates rendered from inside a helper — the induction behind C55/C64 holds for any calls in progress (`act`), so the requests `HOnce`, `HBuffer`, `HTemplate` and `HRender` of a helper program can be replaced by their results, whatever state the renderer is in. That `Registry::once` answers the same needs that fewer calls in progress only remove cycle errors (`out_few`, `err_few`: induction over both semantics). Scope: the documents of C55/C64 (their own calls are to helpers C55 covers); `HTemplate` and `HRender` where no local helper and no partial block is in force.
* **C85** `{{> name this}}` — the same induction as C83 (`ExtractFacts.under`, with `given`): one more scope whose value is what `this` is right below it changes neither `this` nor, for names that are no local variables, what is visible; the scopes around the part come from `with` and `each`, whose local variables all start with `@` (`plain_scope`).

Where the code violates an English property the violating input is a `_refuted` theorem and the provable remainder a `_partial` one.
No property of the list is inexpressible in the model; none is `not_applicable`.

## 5. Findings (defects of the pinned commit that the model exposes)

Each is a checked computation in `Tests.v` or a `_refuted` theorem.

1. Compilation panics while formatting an error report: `[[`, `{{{{`, `{{\n}}`, `é{{}}` (C10). Reports on the line after a newline at byte 0 are wrong (C11).
2. Number literals: `{{foo 007}}`, `{{foo 1e999}}` panic (C10). 256 times `../` overflows a `u8` (C10).
3. Rendering panics: block names ending in a multibyte character, a multibyte character before a second `{{else}}`, `{{lookup l 0}}`, `{{log "x" level=1}}`, `[[a|]]` with a link handler (C53, C35, C37, C07).
4. Silent truncation: `{{#if true}}foo` renders nothing, `x{{{{/raw}}}}y` gives `x`, `{{a else}} rest`, `{{a`, `{{x (foo a=1}} rest`; `{{foo.}}` is accepted (C15).
5. `{{b}}}` swallows the third brace; `"foo\""` loses its escaped quote (C13).
6. Line numbers: newlines in links, after `../` or a leading `/` are not counted; text starting with a newline begins one line late (C17).
7. Whitespace control: eight classes of inputs where `~` strips too much or too little (C46_refuted), among them values, later loop iterations, else branches, partials.
8. Cycle detection rejects 33 nested `{{#if}}` (C40).
9. `@partial-block` stays defined after the call and is overwritten by nested calls; the current partial name is popped once too often (C45).
10. Local helpers are never removed (C44). A helper that catches an error leaves scopes behind (C38).
11. Strict mode does not see `{{this.missing}}`, `{{./missing}}` and helper arguments (C41).
12. `{{> foo}}` without context renders with the (empty) hash object as `this` (C45).
13. `assert(value, kinds)` demands that the value is of *all* kinds (C51).
14. `Output::write_str` for a writer uses `write`, not `write_all` (C48).
15. The content of raw blocks is still lexed and parsed (C22).
16. `eq` and friends compare as f64 (C34). `{{d.1}}` renders `d` itself. `{{else unless x}}` is never selected (C29).
17. `once` differs from `insert` + `render` for a template that includes its own name (C49).
18. A block displays only its body (C63). `raw` of an argument ending in a bracket is cut (C59).
19. A blank between `~` and a statement disables the trimming: `{{~ foo}}` (C46, `C46_refuted`).
20. `RenderError` claims `Eq` but almost no value equals itself (C57).
21. `{{foo (bar baz=1}} x` compiles: a sub-expression that is not closed is accepted after a `key=value` (C70_silent_mistakes).
22. `{{a.}}` and `{{a. b}}` compile: a path may end in a delimiter.
23. `{{a`, `x{{#if a`, `x{{#if a}}b` compile: a tag or block that is never closed is dropped or accepted without an error.
24. `{{a else b}} x {{y}}` and `a{{{{/raw}}}} x {{y}}` compile to what stands before: the rest of the source is dropped without an error.
25. `rc.evaluate` accepts text that is not a path: `(a)`, `a b`, `1 a`, `|a` are read as `a`; `1`, `true` and the empty text have no value instead of a syntax error.
26. `{{(f a) b c=1}}`: the arguments after a computed target are accepted and never used (C55).
27. `{{foo⏎⏎ >}}`: the error report shows the line with `foo` and calls it line 3; `lint` skips the rest of a faulty tag without counting its newlines, so later errors get smaller line numbers; after a newline at the very start of the source the shown line includes that newline (C76).
28. The byte offset of `ParserOptions` is used as a position *in the source*: with `ParserOptions::new("module.rs", 12, 2048)` of the crate documentation the source `{{!` panics instead of reporting `CommentNotTerminated`, and with a small offset the report shows another place (`C77_byte_offset_refuted`).
29. A text that a block helper writes after rendering its block is stripped as if it stood in the template: with `{{~/pad}}` the trailing white space of what the helper itself writes is removed too (`C80_stripped_refuted`).
