{"id": "C01", "title": "Tokens tile the source losslessly", "statement": "For every source string, the tokens produced by lex()/collect(s,false) are non-empty spans that start at byte 0, are contiguous, end at s.len(), and begin and end on UTF-8 character boundaries, so concatenating the token slices gives back the source.", "quantifier": "every source string (any Unicode text, any length)", "why_tests_cant": "needs all strings and all lexer mode sequences", "anchors": ["src/lexer.rs: lex, collect, Lexer::next, Modes"]}
{"id": "C02", "title": "Maximal munch with declared priorities", "statement": "Every token is the longest prefix of the remaining input matched by any pattern of the mode the lexer is in; on equal length the pattern with the higher declared priority wins; an Error token (one character) is produced only when no pattern of the mode matches; the document, comment, raw comment and raw statement modes never produce Error.", "quantifier": "every source string and every lexer mode", "why_tests_cant": "maximality is a statement about all alternatives on all inputs", "anchors": ["src/lexer.rs: Block, Parameters, Link, DoubleQuoteString, SingleQuoteString, Array, Comment, RawComment, RawStatement"]}
{"id": "C03", "title": "Mode discipline of the lexer", "statement": "The token stream is uniquely determined by the source: the mode only changes after the documented delimiters (statement/block/comment/link openers leave document mode, their terminators return to it, quotes and brackets nest inside parameters), so a construct's tokens always come from that construct's own mode.", "quantifier": "every source string", "why_tests_cant": "all interleavings of delimiters", "anchors": ["src/lexer.rs: Lexer::next, set_parameters_mode, until_mode"]}
{"id": "C04", "title": "Normalised token collection", "statement": "collect(s,true) covers exactly the same bytes as collect(s,false), keeps every non-text token unchanged and in order, and never yields two adjacent text tokens.", "quantifier": "every source string", "why_tests_cant": "every token sequence", "anchors": ["src/lexer.rs: collect, normalize, Token::is_text"]}
{"id": "C05", "title": "Compilation terminates", "statement": "Template::compile, Registry::parse, Registry::insert and Registry::lint come back (with a value, an error or a panic) after finitely many steps for every source.", "quantifier": "every source string, every parser option", "why_tests_cant": "non-termination cannot be observed by a finite test run", "anchors": ["src/parser/mod.rs: Parser::parse, Parser::advance, Parser::next", "src/parser/call.rs", "src/parser/path.rs"]}
{"id": "C06", "title": "Plain text is preserved", "statement": "A source that contains no '{{' and no '[[' compiles successfully to a document with (at most) one text node spanning the whole source, and renders to exactly the source under any registry, data and escape function.", "quantifier": "every string without the two openers, every registry and data", "why_tests_cant": "unbounded strings", "anchors": ["src/parser/mod.rs: Parser::advance", "src/parser/block.rs: until", "src/render/mod.rs: render_node"]}
{"id": "C07", "title": "Every node's source span is valid", "statement": "Whenever compilation succeeds, every span recorded in the resulting tree (text, calls, paths, components, blocks, links, open and close tags) is ordered, within the source and on character boundaries, so reading a node's source text never panics; close tags come after open tags.", "quantifier": "every source that compiles, every node of its tree", "why_tests_cant": "all trees", "anchors": ["src/parser/ast.rs: Slice, Element, Text, TextBlock, Call, Path, Component, Block, Link"]}
{"id": "C08", "title": "Block open and close tags agree", "statement": "If compilation succeeds then every (closed) block and raw block in the tree has a closing tag whose name is textually the opening tag's name; a stray or mismatched closing tag makes compilation fail.", "quantifier": "every source", "why_tests_cant": "all nestings", "anchors": ["src/parser/mod.rs: Parser::advance (EndBlockScope)", "src/parser/block.rs: raw, scope"]}
{"id": "C09", "title": "Conditional structure", "statement": "The branches attached to a block are exactly the {{else ...}} statements that occur directly inside it, in source order; nodes before the first else belong to the block body, nodes after an else belong to that branch; branches themselves carry no nested branches.", "quantifier": "every source that compiles", "why_tests_cant": "all nestings", "anchors": ["src/parser/mod.rs: Parser::advance (StartBlockScope)", "src/parser/ast.rs: Block::push, Block::add_condition"]}
{"id": "C10", "title": "Compilation never panics", "statement": "Compiling any source returns Ok or a syntax error, never a panic.", "quantifier": "every source string, every parser option", "why_tests_cant": "exception freedom over all inputs", "anchors": ["src/error/source.rs: ErrorInfo", "src/parser/call.rs: json_literal", "src/parser/path.rs: parents"]}
{"id": "C11", "title": "Syntax error report location", "statement": "A syntax error reported for an (ASCII, newline-delimited) source quotes the line of the source that contains the recorded byte position, with the column pointing at that byte, and the caret diagnostics are placed under that column.", "quantifier": "every source, every byte position inside it", "why_tests_cant": "all positions and line lengths", "anchors": ["src/error/source.rs: SourcePos, ErrorInfo, ErrorInfo Debug"]}
{"id": "C12", "title": "Lint agrees with compile", "statement": "Registry::lint returns an empty list exactly when the template compiles; when compilation fails the first linted error is the compile error; lint itself terminates.", "quantifier": "every source", "why_tests_cant": "all sources and all error-recovery paths", "anchors": ["src/registry.rs: lint", "src/parser/mod.rs: set_errors, Parser::next", "src/lexer.rs: until_mode"]}
{"id": "C13", "title": "String literal decoding", "statement": "A quoted string literal argument denotes the characters between its quotes with escaped delimiters and escaped newlines decoded.", "quantifier": "every literal body and quote type", "why_tests_cant": "all escape combinations", "anchors": ["src/parser/string.rs: parse, literal, RawLiteral::into_owned"]}
{"id": "C14", "title": "Path parsing", "statement": "A dotted sequence of identifiers parses to the path with exactly these components in order; leading '../' are counted, '@root' sets root resolution, 'this' and './' are explicit and '/' absolute.", "quantifier": "every non-empty list of identifiers", "why_tests_cant": "unbounded component lists", "anchors": ["src/parser/path.rs: parse, components, parents, from_str"]}
{"id": "C15", "title": "Nothing of the source is silently dropped", "statement": "When compilation succeeds, the top-level nodes together cover the whole source, contiguously and in order.", "quantifier": "every source that compiles", "why_tests_cant": "all sources", "anchors": ["src/parser/mod.rs: Parser::advance, Parser::parse"]}
{"id": "C16", "title": "Number literals", "statement": "A number argument denotes the JSON number it spells: integers up to u64/i64 are exact.", "quantifier": "every integer literal", "why_tests_cant": "2^64 values", "anchors": ["src/parser/call.rs: json_literal"]}
{"id": "C17", "title": "Line numbers", "statement": "The parser's line counter after consuming a prefix of text, comments and statements is the line offset plus the number of newlines consumed, and a node's line range covers its source lines.", "quantifier": "every source and line offset", "why_tests_cant": "all newline placements", "anchors": ["src/parser/mod.rs: ParseState", "src/parser/block.rs: until", "src/parser/ast.rs: Lines"]}
{"id": "C18", "title": "HTML escaping is safe and lossless", "statement": "The output of the default escape contains no '<', '>', '\"' or bare '&'; it is the concatenation of the escapes of the characters (homomorphic), leaves other characters untouched and is injective (decodable).", "quantifier": "every string", "why_tests_cant": "unbounded strings", "anchors": ["src/escape.rs: html, noop"]}
{"id": "C19", "title": "Double stash escapes, triple stash does not", "statement": "For every identifier and string value, rendering {{id}} writes the escaped value and {{{id}}} writes the value itself, end to end from source text to output.", "quantifier": "every identifier, every value, every escape function", "why_tests_cant": "all identifiers and values", "anchors": ["src/render/mod.rs: statement, render_node", "src/parser/ast.rs: Call::is_escaped"]}
{"id": "C20", "title": "Comments produce no output", "statement": "{{! ... }} and {{!-- ... --}} comments produce no output and evaluate nothing, wherever they occur.", "quantifier": "every comment body, every context", "why_tests_cant": "unbounded bodies", "anchors": ["src/parser/block.rs: comment, raw_comment", "src/render/mod.rs: render_node"]}
{"id": "C21", "title": "Escaped statements render verbatim", "statement": "\\{{body}} renders as {{body}} without evaluating it.", "quantifier": "every body without terminator", "why_tests_cant": "unbounded bodies", "anchors": ["src/parser/block.rs: raw_statement", "src/render/mod.rs: render_node"]}
{"id": "C22", "title": "Raw blocks render their content verbatim", "statement": "The content of {{{{name}}}}...{{{{/name}}}} is emitted verbatim (when no helper of that name consumes it) and nothing inside is evaluated.", "quantifier": "every content", "why_tests_cant": "unbounded content", "anchors": ["src/parser/block.rs: raw", "src/render/mod.rs: block"]}
{"id": "C23", "title": "Links", "statement": "Without a link handler a [[...]] link renders as its source text; an escaped \\[[...]] link renders as the source text without the backslash and never calls the handler; with a handler the handler is called exactly once with the three string arguments href, label and title, in which the escapes \\n, \\| and \\] are replaced by the characters they stand for, an absent part being the empty string.", "quantifier": "every link text", "why_tests_cant": "all link bodies", "anchors": ["src/parser/link.rs", "src/render/mod.rs: link", "src/parser/ast.rs: Link"]}
{"id": "C24", "title": "Variable resolution order", "statement": "A plain path is looked up in the scope stack from the innermost scope to the outermost, in each scope first among its local variables and then in its base value, and finally in the root data; the first hit wins and lookup changes nothing.", "quantifier": "every path, scope stack and root", "why_tests_cant": "all stacks and values", "anchors": ["src/render/mod.rs: lookup, lookup_value", "src/render/scope.rs", "src/json.rs: find_parts, find_field"]}
{"id": "C25", "title": "Parent references", "statement": "'../'-prefixed paths resolve against the scope (or root) the stated number of levels up; too many levels yield nothing.", "quantifier": "every depth and stack", "why_tests_cant": "all depths", "anchors": ["src/render/mod.rs: lookup"]}
{"id": "C26", "title": "Root, this and local variables", "statement": "@root.path always resolves against the render data regardless of the scope stack; 'this' and './' refer to the innermost scope's base value; @name refers to the innermost scope's own local variable only.", "quantifier": "every stack, root and path", "why_tests_cant": "all stacks", "anchors": ["src/render/mod.rs: lookup", "src/render/scope.rs"]}
{"id": "C27", "title": "Truthiness", "statement": "A value is falsy exactly when it is null, false, a zero number (0, 0.0, -0.0) or the empty string; every other value, including empty arrays and objects, is truthy.", "quantifier": "every JSON value", "why_tests_cant": "infinite value space", "anchors": ["src/json.rs: is_truthy"]}
{"id": "C28", "title": "if and unless are complementary", "statement": "if renders its body exactly when the condition is truthy and otherwise its selected else branch; unless renders its body exactly when the condition is falsy; for the same argument exactly one of if/unless renders.", "quantifier": "every value and template", "why_tests_cant": "all values and nested templates", "anchors": ["src/helper/if.rs", "src/helper/unless.rs"]}
{"id": "C29", "title": "else-if chains select one branch", "statement": "With a falsy condition the branch selected is the first conditional else whose condition is truthy, else the (last) plain else, else none; conditions are evaluated in order and at most up to the selected one.", "quantifier": "every chain length and condition values", "why_tests_cant": "unbounded chains", "anchors": ["src/render/mod.rs: inverse"]}
{"id": "C30", "title": "each over arrays", "statement": "each renders its body once per element in order with this bound to the element and @index/@first/@last to its position; an empty array renders nothing from the body.", "quantifier": "every array and template", "why_tests_cant": "unbounded arrays", "anchors": ["src/helper/each.rs"]}
{"id": "C31", "title": "each over objects", "statement": "each over an object visits every key exactly once in key order with this the value, @key the key and @index/@first/@last as for arrays (over arrays @key is not set).", "quantifier": "every object", "why_tests_cant": "unbounded objects", "anchors": ["src/helper/each.rs"]}
{"id": "C32", "title": "with", "statement": "with renders its body with its argument as the innermost scope, and restores the scope stack.", "quantifier": "every value and template", "why_tests_cant": "all values", "anchors": ["src/helper/with.rs"]}
{"id": "C33", "title": "Logical helpers", "statement": "and / or take exactly two arguments and return the boolean conjunction / disjunction of their truthiness; not takes one and returns the negation.", "quantifier": "every argument", "why_tests_cant": "infinite value space", "anchors": ["src/helper/logical.rs"]}
{"id": "C34", "title": "Comparison helpers", "statement": "eq/ne are complementary; lt/gte and gt/lte are complementary on finite numbers and exactly one of lt, eq, gt holds; integers that fit in 53 bits compare exactly.", "quantifier": "every pair of values", "why_tests_cant": "infinite value space, float corner cases", "anchors": ["src/helper/comparison.rs"]}
{"id": "C35", "title": "lookup helper", "statement": "lookup returns the named field (or element) of its first argument, otherwise fails with the lookup error; it never panics for any field value.", "quantifier": "every target and field value", "why_tests_cant": "all values", "anchors": ["src/helper/lookup.rs"]}
{"id": "C36", "title": "json helper", "statement": "json serialises its argument so that parsing the output gives the argument back; the output written is escaped or not like any other value.", "quantifier": "every JSON value", "why_tests_cant": "infinite value space", "anchors": ["src/helper/json.rs"]}
{"id": "C37", "title": "log writes nothing", "statement": "log never writes to the output, for any arguments; it emits, at the level named by its level parameter (info by default and for unknown names), one log record per line of its arguments joined by single spaces, in order.", "quantifier": "every argument list", "why_tests_cant": "all values", "anchors": ["src/helper/log.rs"]}
{"id": "C38", "title": "Scope stack is balanced", "statement": "Rendering any node, with any helpers whose own pushes and pops are balanced, leaves the scope stack exactly as deep as before when it returns normally, and the base values of the enclosing scopes are unchanged.", "quantifier": "every template, registry, data", "why_tests_cant": "all executions", "anchors": ["src/render/mod.rs", "src/helper/each.rs", "src/helper/with.rs"]}
{"id": "C39", "title": "Rendering terminates", "statement": "Rendering any compiled template with any finite registry of templates, any data and any (terminating) helpers comes back: recursion through partials and helpers is cut off.", "quantifier": "every registry, template, data and helper set", "why_tests_cant": "non-termination cannot be tested", "anchors": ["src/render/mod.rs: has_stack, call, block, render_partial"]}
{"id": "C40", "title": "Cycle detection", "statement": "A partial that (transitively) includes itself fails with a cycle error, no call site is ever active more often than the documented limit, and templates without cycles are never rejected by it.", "quantifier": "every registry and template", "why_tests_cant": "all call graphs", "anchors": ["src/render/mod.rs: has_stack, CallSite"]}
{"id": "C41", "title": "Strict mode", "statement": "In strict mode a reference to a missing variable fails with a missing variable error and never renders silently as empty.", "quantifier": "every template and data", "why_tests_cant": "all executions", "anchors": ["src/render/mod.rs: statement"]}
{"id": "C42", "title": "Missing values are silent outside strict mode", "statement": "Outside strict mode, with no helper-missing handler, a plain variable that resolves to nothing renders as the empty string.", "quantifier": "every identifier and data", "why_tests_cant": "all identifiers", "anchors": ["src/render/mod.rs: statement"]}
{"id": "C43", "title": "Helper resolution", "statement": "A call {{name args}} runs the local helper of that name if there is one, else the registered helper, else (for a simple identifier with no arguments) the variable, else the helperMissing / blockHelperMissing handler.", "quantifier": "every name, registry and state", "why_tests_cant": "all registries", "anchors": ["src/render/mod.rs: call, invoke, statement"]}
{"id": "C44", "title": "Local helper lifetime", "statement": "A helper registered locally during a call is available in that call's block and is removed when the registering call ends.", "quantifier": "every helper program", "why_tests_cant": "all executions", "anchors": ["src/render/mod.rs: register_local_helper, unregister_local_helper, invoke"]}
{"id": "C45", "title": "Partials", "statement": "A partial call renders the named template with the given context (or current context) as scope, hash arguments as that scope's variables, the partial block available as @partial-block, and afterwards the scope stack and current template name are restored.", "quantifier": "every registry, template, data", "why_tests_cant": "all executions", "anchors": ["src/render/mod.rs: render_partial"]}
{"id": "C46", "title": "Whitespace control", "statement": "A '~' at the open (close) of a tag removes exactly the whitespace directly before (after) the tag and nothing else; without '~' no whitespace is removed.", "quantifier": "every surrounding text", "why_tests_cant": "unbounded text", "anchors": ["src/trim.rs", "src/render/mod.rs: render_node, write_str"]}
{"id": "C47", "title": "Output is append-only and a failed render leaves a prefix", "statement": "Rendering only appends to the output; an erroring render has written what the successful part produced; what a render writes does not depend on what was already in the output.", "quantifier": "every execution", "why_tests_cant": "all executions", "anchors": ["src/render/mod.rs: write_str", "src/output.rs"]}
{"id": "C48", "title": "I/O errors and completeness of written output", "statement": "If the writer reports an error, rendering stops with that error and writes nothing more; if rendering succeeds every byte of the result has been accepted by the writer.", "quantifier": "every writer behaviour", "why_tests_cant": "all failure points", "anchors": ["src/output.rs: Writer", "src/render/mod.rs: write_str"]}
{"id": "C49", "title": "Registry behaves as a map; render entry points agree", "statement": "insert/remove/get behave as a finite map from names to compiled templates; a failed insert leaves the registry unchanged; once(name,s,data) equals insert followed by render; render and render_to give the same output.", "quantifier": "every operation sequence", "why_tests_cant": "all histories", "anchors": ["src/registry.rs", "src/template.rs"]}
{"id": "C50", "title": "Independence from hash map order", "statement": "The rendered output does not depend on the iteration order of the hash maps holding hash parameters when evaluating them has no side effects.", "quantifier": "every iteration order", "why_tests_cant": "all permutations", "anchors": ["src/render/mod.rs: hash", "src/parser/ast.rs: Call"]}
{"id": "C51", "title": "Argument assertions of helpers", "statement": "Helpers reject calls with the wrong number or type of arguments with the documented error before writing anything; context.assert accepts a value exactly when it is of one of the given kinds.", "quantifier": "every argument list", "why_tests_cant": "all argument lists", "anchors": ["src/render/context.rs", "src/render/assert.rs", "src/helper"]}
{"id": "C52", "title": "Buffered rendering is isolated", "statement": "Rendering a template into a buffer (Render::buffer) returns the text without writing anything to the real output and without changing scopes or stacks of the outer render.", "quantifier": "every template and state", "why_tests_cant": "all executions", "anchors": ["src/render/mod.rs: buffer"]}
{"id": "C53", "title": "Rendering never panics", "statement": "Rendering a compiled template returns Ok or an error, never a panic.", "quantifier": "every template, registry and data", "why_tests_cant": "exception freedom over all executions", "anchors": ["src/render/mod.rs", "src/parser/ast.rs: trim_after_close", "src/helper/lookup.rs", "src/helper/log.rs"]}
{"id": "C54", "title": "Parsing inverts printing", "statement": "For every well-formed template described by a syntax tree (text, statements with any nesting of arguments, sub-expressions and hash arguments, comments, raw comments, escaped statements, links, raw blocks, blocks with else branches, each tag with or without ~), compiling any way of writing it (with any white space inside its tags) succeeds and the AST carries exactly the content of the tree: same nodes, flags, paths, literals, trim markers and source slices.", "quantifier": "every syntax tree of any size and depth", "why_tests_cant": "round trip over all sources: a test only sees the constructs it lists and not their combinations", "anchors": ["src/parser/mod.rs", "src/parser/call.rs", "src/parser/path.rs", "src/parser/string.rs", "src/parser/block.rs", "src/parser/link.rs", "src/lexer.rs"]}
{"id": "C55", "title": "Rendering follows the source semantics", "statement": "The text produced by rendering a template is the one its source means: text verbatim (stripped next to a ~), values shown and escaped, comments nothing, raw blocks and escaped statements verbatim, if/unless/with/each and else branches selected by the values of their arguments, variable blocks, partials rendered with the given context and hash; the same for Template::render with any accepting writer, Registry::render and Registry::once; in particular the result does not depend on hash-table order, and each source has at most one meaning.", "quantifier": "every document tree of the template grammar whose ~ markers stand where the code honours them (the places where it does not are listed, with a refutation each), every registry (standard helpers; user helpers and handlers that return a value or write text), data and set of partials", "why_tests_cant": "all documents of any nesting, all data and all registries", "anchors": ["src/render/mod.rs", "src/helper/if.rs", "src/helper/each.rs", "src/helper/with.rs", "src/helper/unless.rs", "src/trim.rs", "src/parser/mod.rs"]}
{"id": "C56", "title": "How values are shown", "statement": "The text written for a value is determined by the value: strings verbatim, null/true/false as these words, integers in decimal notation without leading zeros (negative ones after a minus sign), objects as Object, arrays as Array[n] with their length; every value has exactly one text, and {{{name}}} writes exactly it.", "quantifier": "every JSON value, every variable name, every registry and data", "why_tests_cant": "all values: unbounded integers, arrays of any length", "anchors": ["src/json.rs: stringify", "src/render/mod.rs: statement, render_node"]}
{"id": "C57", "title": "Comparing errors", "statement": "== on Error is symmetric and transitive; two errors are equal exactly when they are I/O errors of the same kind, or the same syntax error (kind and report), the same missing template or the same missing partial; equal errors other than I/O errors show the same text. As the types implement Eq every error should also equal itself.", "quantifier": "every two error values, however deeply wrapped", "why_tests_cant": "all error values", "anchors": ["src/error/mod.rs: PartialEq", "src/error/render.rs: PartialEq for RenderError", "src/error/syntax.rs"]}
{"id": "C58", "title": "Error messages", "statement": "The message of an error does not depend on how often it was wrapped on its way out; every syntax error says Syntax error and different kinds have different messages, its long form adds the whole report and determines the error; the message of any other error quotes every name it is about and, for names without apostrophes, determines the error; a helper that renders with once sees exactly the message of the inner error.", "quantifier": "every error value and every name", "why_tests_cant": "all error values and wrapping depths", "anchors": ["src/error/syntax.rs: Display, Debug", "src/error/render.rs", "src/error/helper.rs", "src/error/mod.rs: Debug for Error", "src/render/mod.rs: once"]}
{"id": "C59", "title": "A helper sees exactly the arguments of its call", "statement": "Inside a helper, get(i)/param(k) give the value of the i-th/named argument, null if it has no value and nothing if it was not given; missing/get_fallback give the source text of exactly the arguments that have no value; raw(i)/raw_param(k) give the argument as written in the source; try_get/try_param give the value when it has the required type and otherwise the type error naming the helper and the two types; assert_block/assert_statement fail exactly on the other kind of call.", "quantifier": "every template, call, argument position, hash key, data, registry and helper", "why_tests_cant": "all argument lists of any length, mixing present, null and missing values", "anchors": ["src/render/context.rs", "src/render/mod.rs: arguments, hash, find_missing", "src/render/assert.rs", "src/parser/ast.rs: ParameterValue"]}
{"id": "C60", "title": "Templates loaded from files", "statement": "add(name, path) stores under name the template compiled from the content of the file, load(path) does so under the path; an unreadable file or a syntax error is returned and leaves the registry unchanged; read_dir(dir, ext) loads, in directory order, exactly the regular files with that extension under their stems and stops at the first problem, keeping what it already loaded.", "quantifier": "every file system content, directory listing, extension and registry", "why_tests_cant": "all directories and failure points", "anchors": ["src/registry.rs: add, load, read_dir, read"]}
{"id": "C61", "title": "The file name is only a label", "statement": "Compiling the same source under two file names gives the same tree, or the same kind of syntax error, or the same panic; the rendered output does not depend on the file name.", "quantifier": "every source and every two file names", "why_tests_cant": "all sources", "anchors": ["src/parser/mod.rs: Parser::new", "src/error/source.rs", "src/registry.rs: parse"]}
{"id": "C62", "title": "Registry settings are independent", "statement": "Registering or removing a helper affects exactly that name; setting the escape function, strict mode or one of the handlers changes that setting alone; a statement {{name}} then writes the value through the escape function set last and {{{name}}} writes it verbatim.", "quantifier": "every registry, name, helper, escape function, data", "why_tests_cant": "all histories of registry updates", "anchors": ["src/registry.rs: set_escape, set_strict", "src/helper/mod.rs: HelperRegistry, HandlerRegistry", "src/escape.rs"]}
{"id": "C63", "title": "Templates and nodes display their source", "statement": "A compiled template displays its source, so compiling what it displays gives the same template; the source texts of the nodes of a document, in order, are the pieces of the source; each node displays its source text.", "quantifier": "every template source", "why_tests_cant": "all sources", "anchors": ["src/parser/ast.rs: Slice, Display", "src/template.rs: Display"]}
{"id": "C64", "title": "Failed renders: which error, after which output", "statement": "A template of the grammar that cannot be rendered (a missing variable or block in strict mode, an unknown or cyclic partial, a partial name that is not an identifier, a helper called with the wrong arguments, too many nested helper calls, at any depth of blocks, rounds of each and partials) makes once, render and render_to_write return exactly that error, after writing exactly the output of everything before the point of failure; what follows has no effect. No template both renders and fails, and the error and the output so far are unique.", "quantifier": "every document of the template grammar with ~ where the code honours it, registry, data, accepting writer", "why_tests_cant": "all documents, data and nesting depths", "anchors": ["src/render/mod.rs: Render", "src/error/mod.rs: RenderError", "src/registry.rs: once, render, render_to_write"]}
{"id": "C65", "title": "Every render ends, as the source says", "statement": "A call of once or render on a template of the grammar always ends: it gives the text the source semantics assigns to the template, or the error (or helper panic) the semantics assigns to it, and never anything else (no syntax error, no endless recursion, no other error). A text is returned exactly when the semantics gives that text, an error exactly when it gives that error, a panic exactly when a helper panics. With the standard helpers this holds for every document in which no call has two sub-expressions among its hash arguments and no raw block is named after a block helper.", "quantifier": "every document of the grammar (with ~ where the code honours it), all data, every registry whose helpers each either return, write, fail or panic, every set of partials including cyclic ones", "why_tests_cant": "termination and totality over all documents, data, partial graphs and registries", "anchors": ["src/render/mod.rs: Render", "src/registry.rs: once, render", "src/helper/*.rs", "src/parser/mod.rs"]}
{"id": "C66", "title": "Reformatting the white space inside tags changes nothing", "statement": "Two sources that write the same document and differ only in the white space (spaces, tabs, newlines) inside their tags give the same answer from once: the same text, the same error, or the same panic of a helper; in particular every such source behaves like the canonically formatted one.", "quantifier": "every document of the grammar, every two layouts of it, every registry of C65, all data", "why_tests_cant": "all documents and all layouts", "anchors": ["src/parser/*.rs", "src/render/mod.rs: Render", "src/registry.rs: once"]}
{"id": "C67", "title": "Rendering is compositional over concatenation", "statement": "Rendering the concatenation of two sources gives the concatenation of what they render to on their own; if the first fails, its error, and if only the second fails, the error of the second. (No ~ where the two meet; no partial block in the first part.)", "quantifier": "every two documents of the grammar, every registry of C65, all data", "why_tests_cant": "all pairs of documents", "anchors": ["src/render/mod.rs: Render::render", "src/registry.rs: once"]}
{"id": "C68", "title": "Unused templates have no effect", "statement": "Adding a template under a new name to the registry, or removing one, changes the answer of no render that does not ask for that name: unless the render without it fails because that partial is not found, once and render return exactly the same result with it as without it, and write the same output.", "quantifier": "every registry whose helpers pass on inner errors (the standard helpers do), every template, data and writer", "why_tests_cant": "all templates, registries and data", "anchors": ["src/registry.rs: insert, remove, once, render", "src/render/mod.rs: render_partial, get_template"]}
{"id": "C69", "title": "Strict mode only refuses", "statement": "If a render in strict mode succeeds, the render in non-strict mode, with or without a handler for missing helpers, gives the same output; more generally the two have the same result and the same effect on the writer unless strict mode answers with a missing variable or missing helper error.", "quantifier": "every registry whose helpers pass on inner errors (the standard helpers do), every template, data and writer", "why_tests_cant": "all templates and data", "anchors": ["src/registry.rs: set_strict", "src/render/mod.rs: resolve, call, block"]}
{"id": "C70", "title": "The first mistake is the error", "statement": "A source made of text, well-formed tags and tags with one mistake each (a word that cannot stand where it stands, a missing value, a missing target, an unclosed sub-expression, a stray character, a string or sub-expression in the wrong place, a path with doubled delimiters, a misplaced `this`, `../`, `@name`, `[name]` or quoted segment, a newline in a quoted string or segment, a block name that is not a name, closing tags without or of another block) is rejected by compile, insert and once with exactly the error kind of its first mistake and exactly the notes that belong to it (which block to open, which name the block was opened with), wherever it stands and whatever surrounds it, and a failed insert leaves the registry unchanged; if there is no mistake the source compiles.", "quantifier": "every source built from such pieces, of any length, nesting and spacing, and every position of the mistake", "why_tests_cant": "all sources and mistake positions", "anchors": ["src/parser/call.rs: call_target, arguments, key_value, value, sub_expr", "src/parser/mod.rs: advance, block", "src/parser/block.rs: scope"]}
{"id": "C71", "title": "Lint finds every mistake", "statement": "lint on such a source returns one error for each mistake, in source order and with the kind and the notes of that mistake: after an error it goes on with the next tag, a mistake inside a block does not hide the mistakes after it, a closing tag closes the innermost open block even if its name is wrong, and a tag with a mistake opens nothing.", "quantifier": "every source of C70, with any number of mistakes", "why_tests_cant": "all sources and combinations of mistakes", "anchors": ["src/registry.rs: lint", "src/parser/mod.rs: next, advance, block", "src/lexer.rs: until_mode"]}
{"id": "C72", "title": "Paths evaluated by a helper", "statement": "rc.evaluate(path) inside a helper gives the value the same path has as an argument in the template at that point (none if it has none), rc.try_evaluate(path, type) gives that value, null counting for a missing one, if it has the type and otherwise the type error naming the path, the type required and the type found; for any text evaluation ends, writes nothing and changes no state; text that is not a path is a syntax error.", "quantifier": "every path, text, data, scope stack, type and continuation of the helper", "why_tests_cant": "all paths and data", "anchors": ["src/render/mod.rs: evaluate, try_evaluate, lookup", "src/parser/path.rs: from_str", "src/render/assert.rs: assert"]}
{"id": "C73", "title": "Parts that mean the same can be exchanged anywhere", "statement": "When two parts of a template write the same text and fail in the same way wherever they stand, replacing one by the other - in the template, inside its blocks and branches, inside the content of partial blocks, or in the templates it includes - does not change the output, the error or the panic of a render.", "quantifier": "every template of the grammar, every set of registered templates, every data, any number of replacements at any depth", "why_tests_cant": "the parts, the places they stand in and the data are unbounded", "anchors": ["src/render/mod.rs: Render::render_node, block, render_partial, statement", "src/registry.rs: Registry::once"]}
{"id": "C74", "title": "Spellings that make no difference", "statement": "The order of the named arguments of a call, the text of a comment, triple braces around a partial, triple braces around a statement of a registry that does not escape, arguments after a computed target, and the else branches of with, each and partial blocks make no difference; a partial whose name is computed is the partial of that name.", "quantifier": "every call, block, registry and data", "why_tests_cant": "unbounded templates and data", "anchors": ["src/render/mod.rs: Render::call, render_partial, get_partial_name, block", "src/parser/call.rs: parse", "src/helper/each.rs", "src/helper/with.rs"]}
{"id": "C75", "title": "What a helper can do with the render context", "statement": "Inside a helper, rc.push_scope, pop_scope and scope_mut work on one stack of scopes, pop_scope returning the scope removed (none when there is none); rc.evaluate sees that stack as it is at that moment; rc.data is the root data, rc.get_template the registered template of that name, rc.template_name and rc.current_name the names of the rendered and of the current template, rc.escape the registry's escape function; rc.register_local_helper and unregister change that one name for the rest of the render; rc.write and write_escaped hand the writer the text stripped by the neighbouring ~ (and escaped), nothing at all if nothing is left, and return what the writer returned; rc.out is the writer itself. None of them changes anything else. A helper that uses scopes, paths, data and escaping to work out its texts and value and leaves the scopes as it found them writes in a template exactly those texts followed by its value.", "quantifier": "all helper programs made of these requests, all states of the renderer, writers, registries and data; for the last sentence all templates of C55 around the call", "why_tests_cant": "programs of any length with any interleaving of requests, over any scope stack, writer behaviour and surrounding template", "anchors": ["src/render/mod.rs: push_scope, pop_scope, scope, scope_mut, evaluate, data, get_template, template_name, current_name, escape, write, write_escaped, out, register_local_helper, unregister_local_helper"]}
{"id": "C76", "title": "A syntax error points at the mistake", "statement": "The error a malformed source is rejected with, and every error of lint, is reported for a byte inside the tag that has the mistake. Its report shows the line of the source that byte is on with the number of that line (counted from the line offset of the options), its column, a caret under it, and the notes of the mistake.", "quantifier": "all sources made of good pieces and of tags with mistakes (as in C70/C71), in any number and order, all file names and parser options", "why_tests_cant": "the place of the mistake is kept by mutable counters through the whole parse: any number of pieces, lines and open blocks may stand before it", "anchors": ["src/parser/mod.rs", "src/parser/call.rs", "src/parser/path.rs", "src/parser/string.rs", "src/parser/block.rs", "src/error/source.rs: ErrorInfo"]}
{"id": "C77", "title": "Line and byte offsets of the parser options", "statement": "Compiling a template that was extracted from a larger document with a line offset adds the offset to every line number of the template and of the error report; the spans, the shape of the template, the kind of error and whether compiling succeeds stay the same. The byte offset influences nothing of the template and nothing of an error report. Templates compiled from one source with different file names, line and byte offsets render to the same output or the same error.", "quantifier": "all sources, file names, line offsets and byte offsets; for rendering all documents, registries and data of the semantics C55/C64/C65", "why_tests_cant": "the offsets are threaded as mutable counters through every parsing function; one function that resets or double counts them shows only for sources that reach it", "anchors": ["src/parser/mod.rs: ParserOptions, Parser::new", "src/lib.rs: documentation of ParserOptions", "src/template.rs: Template::compile", "src/error/source.rs: ErrorInfo"]}
{"id": "C78", "title": "Markup in the output comes from the templates only", "statement": "Whatever the data: if a template and the registered templates use no {{{value}}} and the registered helpers write through the escape function only (the standard helpers never write unescaped), then everything a render writes, also one that fails, is put together from the text of the templates (up to white space removed by ~) and from results of the escape function. With the standard escape function the latter are plain text for a browser, so templates without markup give output without markup.", "quantifier": "all data, all templates and registries of the semantics C55/C64/C65 (any nesting of blocks, loops, partials, partial blocks), all helpers that only write escaped text, all escape functions and outputs", "why_tests_cant": "an attacker chooses the data; a single place that forgets to escape, in any nesting, breaks the claim", "anchors": ["src/escape.rs: html", "src/render/mod.rs: statement, write_str, write_escaped", "src/helper/*.rs", "src/render/mod.rs: render_partial, invoke"]}
{"id": "C79", "title": "Helpers that are not called have no effect", "statement": "Registering, replacing or removing a helper changes nothing for templates that do not call it: if neither the template nor a registered template has a statement, block, raw block, branch condition or sub-expression of that name, every render gives the same result and writes the same text.", "quantifier": "all templates, registries and data of the semantics C55/C64/C65, all helper names and helpers (also ones that panic or fail), all outputs", "why_tests_cant": "helper names are looked up at every call of every nesting depth; the claim excludes any unexpected lookup", "anchors": ["src/helper/mod.rs: HelperRegistry", "src/render/mod.rs: statement, block, call", "src/registry.rs: helpers_mut"]}
{"id": "C80", "title": "Block helpers of one's own", "statement": "A registered helper that is given a block may write texts, render its block any number of times (also in scopes it pushes, with local variables), render the selected else branch, or stop with an error. The template then writes exactly the texts before the block, what each step of the helper writes in its turn - the block rendered in the scopes of that moment, the branch a standard 'if' would select - and the text after the block. A helper that renders its block once per element writes what a loop writes; an error of a step ends the render with that error and keeps what was written before.", "quantifier": "all helpers that perform any finite sequence of such steps (depending on arguments, hash, scopes), all blocks, branches, nestings, surrounding documents, registries and data of the semantics C55/C64/C65", "why_tests_cant": "helpers are arbitrary programs; the number and order of steps, the nesting of blocks given to different helpers and the scope stack have no bound", "anchors": ["src/render/mod.rs: Render::template, push_scope, pop_scope, inverse, write, write_escaped", "src/render/mod.rs: block, block_helper_missing", "src/helper/mod.rs: Helper::call"]}
{"id": "C81", "title": "Data that is not reached has no effect", "statement": "A template shows only what its paths name: two data values that hold the same under the names a template (and its partials) reads give the same render - the same result, error or text - whatever else they hold. Adding to the data a field that no path names changes nothing. `this` and `@root` reach the data as a whole; inside 'with', 'each' and partials `this` does not.", "quantifier": "all pairs of data values that agree on the names read, all documents, partials, registries and helpers of the semantics C55/C64/C65 (helpers that do not ask the render context for the data themselves; those of the crate do not)", "why_tests_cant": "the data that is not read is arbitrary, as are the templates, their nesting and the scopes a name is searched in before the data is", "anchors": ["src/render/mod.rs: lookup, find_field, evaluate, Scope", "src/json.rs: find_parts", "src/helper/with.rs, each.rs, if.rs: call"]}
{"id": "C82", "title": "Pieces that are never closed are reported", "statement": "A source whose last piece is a comment, a raw comment, an escaped statement, a link or a raw block that is still open at the end of the source (with at least one character after its opening marker) does not compile: the error has the kind for that piece and is about a byte of that piece, whatever correct pieces and open blocks stand before it; lint reports that one error only; a registry refuses the template and stays as it was. A raw block closed under another name is reported likewise, with a note that names its opening, and lint goes on to the mistakes after it.", "quantifier": "all contents of the open piece, all raw block openings and names, all sequences of correct pieces and open blocks before it (and, for raw blocks with a wrong name, of any pieces with mistakes after it), all file names", "why_tests_cant": "the text that is swallowed by the open piece and the document before it are unbounded, and the error must be located inside the piece for all of them", "anchors": ["src/parser/block.rs: until, text_until, raw, raw_comment, raw_statement, comment", "src/parser/link.rs: parse", "src/parser/mod.rs: Parser::advance", "src/registry.rs: lint, once, insert"]}
{"id": "C83", "title": "A part of a template can be moved into a partial", "statement": "Moving a run of consecutive items of a template, at the top level or inside the blocks of the standard block helpers and their branches, into a partial of its own, and writing a call of that partial in its place, does not change the result: the same text, or the same error with the same text before it. The moved part and the other partials may use names, `@root` paths, parameters and blocks freely; `this`, `./`, `../` and local variables such as `@index` only about scopes that the part opens itself, since a partial opens an empty scope of its own. No `~` may reach over the seams, and the part must not include itself.", "quantifier": "all templates split at any two places, at the top level or at any depth inside blocks, all parts, partial names, data values, other partials, registries with the standard helpers (or helpers that do not look at the scopes), all white space inside the tags", "why_tests_cant": "documents, parts and data are unbounded, and the extra scope is seen only by particular paths at particular depths", "anchors": ["src/render/mod.rs: render_partial, lookup, evaluate", "src/render/scope.rs: Scope", "src/trim.rs: TrimState", "src/registry.rs: once"]}
{"id": "C84", "title": "Templates rendered from inside a helper", "statement": "A helper that calls once on the render context with a file name, a template text and data gets the text that template writes for this data, and nothing else happens: the output, the scopes and the data of the render around it are as before. When it cannot be rendered the helper gets an error with the message of that failure (of the syntax error when it does not compile), with the given file name as the template name. Registry::once answers the same text or error for these arguments, unless too many calls are in progress: the calls around the helper count. A registered template that a helper renders into a buffer, or directly, is rendered in the scopes and with the data of the helper; its errors are handed to the helper unchanged.", "quantifier": "all helpers, all states of the render around it (calls in progress, scopes, local helpers, output), all template texts of the grammar and all others that do not compile, all data, file names, registries", "why_tests_cant": "the helper may be called anywhere in any render, with any calls in progress, and what it renders is unbounded", "anchors": ["src/render/mod.rs: once, buffer, template, Render::new", "src/registry.rs: once_stack, once", "src/template.rs: Template::compile, Template::render", "src/render/mod.rs: render"]}
{"id": "C85", "title": "A part that uses this can be moved into a partial that is given this", "statement": "Moving a run of consecutive items of a template, at the top level or inside the blocks of the standard block helpers and their branches, into a partial of its own and writing {{> name this}} in its place does not change the result: the same text, or the same error with the same text before it. The part may use this, ./ and names freely; the local variables of the loops around it (@index, @first, @last, @key) and ../ only about scopes that it opens itself: the partial is given the value, not the variables.", "quantifier": "all templates split at any two places, at the top level or at any depth inside blocks, all parts, partial names, data values (objects, lists, texts, numbers, null), other partials, registries with the standard helpers (or helpers that do not look at the scopes), all white space inside the tags", "why_tests_cant": "documents, parts and data are unbounded, and the scope of the partial stands between those of the part and those around it for every path", "anchors": ["src/render/mod.rs: render_partial, lookup, evaluate", "src/render/scope.rs: Scope", "src/registry.rs: once"]}
