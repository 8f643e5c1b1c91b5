{"id": "C01", "title": "Plain-text escaping is safe and lossless", "statement": "Escaping text for an HTML target never leaves a raw '<' or '>' in the output, every '&' in the output starts one of the entities &amp; &lt; &gt;, and decoding these entities gives back exactly the original text.", "quantifier": "every Unicode string", "why_tests_cant": "A unit test checks a handful of strings; an escaping hole shows up only for particular character combinations (e.g. text that already looks like an entity).", "anchors": ["src/hypertag/std/html.py: html_escape", "src/hypertag/core/ast.py: HypertagAST.escape, static.setup"]}
{"id": "C02", "title": "Escaping commutes with splitting the text", "statement": "Escaping a text piece by piece (line by line, fragment by fragment) gives the same result as escaping the whole text at once, so it does not matter how the parser cuts a text block into fragments.", "quantifier": "every pair of strings / every split of a text into pieces", "why_tests_cant": "The number of ways to cut a text is unbounded; the three sequential replace() passes are not obviously a homomorphism.", "anchors": ["src/hypertag/std/html.py: html_escape", "src/hypertag/core/ast.py: NODES.xline_normal"]}
{"id": "C03", "title": "An attribute value can never break out of its quotes", "statement": "For a rendered attribute name=\"value\" an HTML attribute reader that stops at the matching quote consumes the whole rendered value and, after decoding entities, returns exactly str(value). The rendered value contains no raw '<', '>', newline, tab or carriage return.", "quantifier": "every attribute name without '=' and every string value", "why_tests_cant": "An injection needs a specific mix of both quote characters, entities and control characters that a finite test list does not enumerate.", "anchors": ["src/hypertag/core/tag.py: Markup._render_attr", "xml.sax.saxutils.quoteattr"]}
{"id": "C04", "title": "Boolean and duplicate attributes", "statement": "A True attribute renders as the bare name (name=\"name\" in XHTML mode), a False one is omitted, all other attributes are rendered in their order of appearance, separated by single spaces; repeated attributes of one tag occurrence are merged into one by joining the string values with a single space in order of occurrence.", "quantifier": "every list of attributes", "why_tests_cant": "Ordering and merging must hold for every list of attributes of every length.", "anchors": ["src/hypertag/core/tag.py: Markup._expand, Markup._render_attr", "src/hypertag/core/ast.py: NODES.xtag_expand._eval_attrs"]}
{"id": "C05", "title": "Shape of a rendered element", "statement": "A non-void markup tag renders as an opening tag, the body unchanged, an optional newline, and the closing tag with the same name; the newline is there exactly when the body starts on a new line. A void tag renders a single self-closing tag for an empty body and is rejected with an error for any non-empty body. Positional attributes are always rejected. The tag %custom makes an element of the name given as its only positional attribute.", "quantifier": "every tag, attribute list and body string", "why_tests_cant": "Universal statement over all bodies.", "anchors": ["src/hypertag/core/tag.py: Markup.expand, Markup._expand", "src/hypertag/std/html.py: CustomTag.expand 65-70"]}
{"id": "C06", "title": "Rendered markup is well-formed", "statement": "The output rendered from any tree of markup elements and escaped texts can be read back: scanning it yields properly nested tags whose names and attributes are those of the tree, regardless of texts, attribute values and indentation inserted by the renderer.", "quantifier": "every DOM tree built of markup tags and escaped text nodes with arbitrary attribute values and relative indentation", "why_tests_cant": "Trees are unbounded in depth and width; the renderer re-indents the already rendered markup by textual substitution, which must never corrupt a tag.", "anchors": ["src/hypertag/core/dom.py: DOM.Node.render, DOM.Node._render_body, add_indent", "src/hypertag/core/tag.py: Markup._expand"]}
{"id": "C07", "title": "Re-indentation touches exactly the non-empty lines", "statement": "Adding an indentation to a text prepends it to every non-empty line except the first one, leaves empty lines and the first line alone, and keeps the number of lines.", "quantifier": "every text and every indentation string", "why_tests_cant": "Regex-based substitution has corner cases (consecutive newlines, trailing newline) scattered over an infinite input space.", "anchors": ["src/hypertag/core/dom.py: add_indent"]}
{"id": "C08", "title": "Nested indentation adds up", "statement": "Indenting a text first by an inner and then by an outer indentation equals indenting it once by the concatenation outer+inner, so a line nested in blocks with indentations i1..in is rendered with i1+...+in in front.", "quantifier": "every text and every sequence of indentation strings without newlines", "why_tests_cant": "Nesting depth is unbounded.", "anchors": ["src/hypertag/core/dom.py: add_indent, DOM.Node.render"]}
{"id": "C09", "title": "Common indentation is detected exactly", "statement": "The detected common indentation of a text is the longest whitespace string that is a prefix of every non-blank line; it is empty when there are no non-blank lines.", "quantifier": "every text", "why_tests_cant": "Maximality (nothing longer is common) is a universal statement for each text.", "anchors": ["src/hypertag/core/dom.py: get_indent"]}
{"id": "C10", "title": "Removing the common indentation is line-wise and reversible", "statement": "Removing an indentation strips it from exactly the lines that start with it and leaves every other line alone; after removing the detected common indentation no common indentation is left and the non-blank lines keep their relative indentation, so putting the indentation back on non-blank lines restores them.", "quantifier": "every text", "why_tests_cant": "replace()-based implementation works on the flat text; equivalence with the line-wise meaning must be shown for all texts.", "anchors": ["src/hypertag/core/dom.py: del_indent, get_indent", "src/hypertag/std/builtins.py: dedent"]}
{"id": "C11", "title": "Layout of text blocks", "statement": "In a multi-line text block all lines keep their indentation relative to each other; the marker width and the common indentation are removed.", "quantifier": "every headline, tail and marker column", "why_tests_cant": "Depends on the interplay of marker column, headline presence and tail indentation; the space of layouts is infinite.", "anchors": ["src/hypertag/core/ast.py: NODES.block_text.render"]}
{"id": "C12", "title": "Indentation symbols never collide with script characters", "statement": "The four symbols used internally to mark indentation are pairwise different and none of them occurs in the script, whatever characters the script consists of; so no script text can be mistaken for indentation and none is lost.", "quantifier": "every script", "why_tests_cant": "Scripts that contain the default symbols are exactly the ones tests do not contain.", "anchors": ["src/hypertag/core/ast.py: Grammar.get_parser"]}
{"id": "C13", "title": "Indentation symbols are balanced", "statement": "In the preprocessed script the indent and dedent symbols are properly nested and of matching kind (space/tab), and everything is closed at the end, so the parser never sees a stray dedent and the translator's indentation stack never underflows.", "quantifier": "every script accepted by the preprocessor", "why_tests_cant": "Must hold for all indentation histories.", "anchors": ["src/hypertag/core/ast.py: Grammar.preprocess", "src/hypertag/core/structs.py: State.dedent"]}
{"id": "C14", "title": "Preprocessing is lossless", "statement": "From the preprocessed script one can recover every line of the original one: its indentation and its content up to trailing whitespace (for scripts indented with spaces and tabs). In particular two scripts with different lines never become the same preprocessed text.", "quantifier": "every accepted script", "why_tests_cant": "Universal round-trip statement.", "anchors": ["src/hypertag/core/ast.py: Grammar.preprocess"]}
{"id": "C15", "title": "Indentation errors are raised exactly when they should be", "statement": "Preprocessing fails with an indentation error iff some non-blank line has an indentation that is neither a prefix nor an extension of the indentation of the previous non-blank line; the reported line number is the first such line. No internal assertion can fail.", "quantifier": "every script", "why_tests_cant": "Both directions of an iff over all scripts.", "anchors": ["src/hypertag/core/ast.py: Grammar.preprocess"]}
{"id": "C16", "title": "Line numbers survive preprocessing", "statement": "Every non-blank line number k of the script is line number k+1 of the preprocessed text, so that errors can be reported with right line numbers by subtracting one; the number of lines is the same up to this constant.", "quantifier": "every accepted script and every line of it", "why_tests_cant": "Blank lines are moved around dedents; only a universal statement covers all interleavings.", "anchors": ["src/hypertag/core/ast.py: Grammar.preprocess", "src/hypertag/core/errors.py: HError.make_msg"]}
{"id": "C17", "title": "Scope stack behaves like lexical scoping", "statement": "The symbol table used during semantic analysis behaves as a stack of bindings: looking up a name gives the most recent binding still on the stack, popping restores the previous binding of the name, and resetting to a saved position restores all lookups to what they were at that position.", "quantifier": "every sequence of push/pop/reset operations", "why_tests_cant": "Histories are unbounded; hash map plus back-links must stay consistent after each of them.", "anchors": ["src/hypertag/core/structs.py: MultiDict"]}
{"id": "C18", "title": "Snapshot of the symbol table", "statement": "The dictionary of symbols declared since a given position holds for each name its latest binding made since then, and adding it back as new symbols never shadows an existing name.", "quantifier": "every history and position", "why_tests_cant": "Same as above: unbounded histories.", "anchors": ["src/hypertag/core/structs.py: MultiDict.asdict, pushnew, pushall"]}
{"id": "C19", "title": "Traversal visits every node once, in the declared order", "statement": "walk() yields each node of a DOM exactly once; parents come before their descendants in 'preorder' and after them in 'postorder', siblings keep document order; nodes excluded by the skip function are omitted together with their whole subtree.", "quantifier": "every DOM tree, both orders, every skip predicate", "why_tests_cant": "Trees are unbounded.", "anchors": ["src/hypertag/core/dom.py: DOM.walk, DOM.Node.walk"]}
{"id": "C20", "title": "select() returns exactly the nodes satisfying the constraint", "statement": "select() returns, in the traversal order and without copying, exactly the nodes with the requested tag name that have the requested attribute (with the requested value if given), for every document.", "quantifier": "every DOM tree and constraint", "why_tests_cant": "The outcome depends on all kinds of nodes occurring in the tree, including text nodes and nodes of the null tag.", "anchors": ["src/hypertag/core/dom.py: DOM.select, DOM._constraint, DOM._test"]}
{"id": "C21", "title": "skip() prunes a copy and leaves the original intact", "statement": "skip() returns a tree from which every node satisfying the constraint is removed with its subtree and all other nodes stay in place; no node of the original tree is changed and the result shares no node with it.", "quantifier": "every DOM tree and constraint", "why_tests_cant": "Needs reasoning about object identity and mutation for all trees.", "anchors": ["src/hypertag/core/dom.py: DOM.skip, DOM.alter, DOM.copy"]}
{"id": "C22", "title": "copy() is deep and equal", "statement": "The copy of a DOM renders to the same text as the original, and later in-place modifications of the copy are not visible in the original.", "quantifier": "every DOM tree and every later modification", "why_tests_cant": "Aliasing bugs are visible only for particular sequences of mutations.", "anchors": ["src/hypertag/core/dom.py: DOM.copy, DOM.Node.copy"]}
{"id": "C23", "title": "alter() replaces nodes in the documented order", "statement": "alter() replaces every node by the nodes returned by the transform function, before the recursive calls on children in 'preorder' and after them in 'postorder'.", "quantifier": "every DOM tree, transform function and order", "why_tests_cant": "The order matters only for transforms that look at, or change, the children.", "anchors": ["src/hypertag/core/dom.py: DOM.alter, DOM.Node.alter"]}
{"id": "C24", "title": "Flattening of nested sequences", "statement": "Building a DOM out of nested lists, generators and DOMs gives the flat list of all nodes in order, with empty (None) items dropped and an error raised for items that are not nodes; the operation is idempotent.", "quantifier": "every finitely nested sequence", "why_tests_cant": "Nesting is unbounded.", "anchors": ["src/hypertag/core/dom.py: DOM.__init__, DOM._flatten", "src/nifty/util.py: flatten"]}
{"id": "C25", "title": "Slicing a DOM", "statement": "dom[a:b:c] is the DOM made of the nodes dom.nodes[a:b:c].", "quantifier": "every DOM and slice", "why_tests_cant": "Universal over DOMs and slices.", "anchors": ["src/hypertag/core/dom.py: DOM.__getitem__"]}
{"id": "C26", "title": "Rendering is indented by the position in the tree", "statement": "Each text line of a rendered document is indented by exactly the indentation of the block it belongs to: rendering the tree of relative indentations equals direct rendering with absolute indentations.", "quantifier": "every DOM tree whose absolute indentations are nested", "why_tests_cant": "The relativisation of indentations is done by mutation at translation time and resolved at rendering; unbounded depth.", "anchors": ["src/hypertag/core/dom.py: DOM.Node.set_indent, relative_indent, render", "src/hypertag/core/dom.py: DOM.Root.render"]}
{"id": "C27", "title": "A DOM embedded twice is rendered properly in both places", "statement": "When the same body is inserted in two places with different nesting (two @body lines), each copy is rendered with the indentation and line break of its own place, and an insertion discarded by a failing try branch leaves no trace.", "quantifier": "every pair of places", "why_tests_cant": "Depends on aliasing of node objects between places.", "anchors": ["src/hypertag/core/ast.py: NODES.xblock_embed, NODES.xblock", "src/hypertag/core/dom.py: DOM.set_indent"]}
{"id": "C28", "title": "Current indentation is restored after every block, also on failure", "statement": "After translation of any body of a block, successful or interrupted by an exception at any point, the current indentation of the translator is the same as before, so the failed branch of a try block does not shift the following blocks.", "quantifier": "every block, state and failure point", "why_tests_cant": "There is a potential failure point in every expression of every block.", "anchors": ["src/hypertag/core/ast.py: NODES.body.translate, NODES.block_text.render"]}
{"id": "C29", "title": "try block picks the first alternative that does not fail", "statement": "A try block outputs the first of its alternatives that is translated without exception and produces no output if all of them fail; it never raises an exception itself; nothing from the failed alternatives appears in the output.", "quantifier": "every list of alternatives and every pattern of failures", "why_tests_cant": "Failure patterns are unbounded.", "anchors": ["src/hypertag/core/ast.py: NODES.xblock_try"]}
{"id": "C30", "title": "if block selects the first true branch lazily", "statement": "An if block outputs the body of the first clause whose condition is true, or else of the 'else' clause, or else nothing; conditions after the selected one and bodies of other clauses are not evaluated.", "quantifier": "every list of clauses and conditions", "why_tests_cant": "Laziness means absence of effects of all the other clauses.", "anchors": ["src/hypertag/core/ast.py: NODES.xblock_if, xclause_if, xclause_else"]}
{"id": "C31", "title": "for block", "statement": "A for block outputs the concatenation of its body translated once for each item in order, with the loop variables assigned to the item, and its else clause exactly when there are no items.", "quantifier": "every iterable and body", "why_tests_cant": "Iteration counts are unbounded; the else clause may contain any block.", "anchors": ["src/hypertag/core/ast.py: NODES.xblock_for"]}
{"id": "C32", "title": "while block", "statement": "A while block repeats its body as long as the condition is true and outputs the concatenation; the else clause is output exactly when the condition was false at the first test.", "quantifier": "every condition, body and state", "why_tests_cant": "The number of iterations is unbounded.", "anchors": ["src/hypertag/core/ast.py: NODES.xblock_while"]}
{"id": "C33", "title": "Variables of a tagged block are local to it", "statement": "Translation of a block with a tag never changes the value of any variable visible before the block; variables first assigned inside it cannot be referenced after it.", "quantifier": "every block, context and state", "why_tests_cant": "Quantifies over all nested blocks and hypertag expansions inside.", "anchors": ["src/hypertag/core/ast.py: NODES.xblock_struct, NODES.variable.analyse", "src/hypertag/core/structs.py: Slot"]}
{"id": "C34", "title": "Control blocks share the namespace of their surroundings", "statement": "A value assigned to a variable inside if/try/for/while is visible in the blocks that follow in the same scope.", "quantifier": "every control block and scope", "why_tests_cant": "Depends on the relation of the scope of the control block to the scope where the variable was first defined.", "anchors": ["src/hypertag/core/ast.py: NODES.control_block._analyse_branches", "src/hypertag/core/structs.py: MultiDict.pushnew"]}
{"id": "C35", "title": "Undefined names are detected statically", "statement": "If a script uses a variable or tag that is not defined earlier in an enclosing scope, translation fails before anything is executed, whether or not the block would be reached; after successful analysis every name used refers to a slot.", "quantifier": "every script", "why_tests_cant": "Universal over scripts and control flow paths.", "anchors": ["src/hypertag/core/ast.py: NODES.variable.analyse, NODES.tag.analyse"]}
{"id": "C36", "title": "Tags and variables live in separate namespaces", "statement": "Defining a tag never affects the variable of the same name and the other way round.", "quantifier": "every name and history of definitions", "why_tests_cant": "Universal over names and histories.", "anchors": ["src/hypertag/core/grammar.py: TAG, VAR", "src/hypertag/core/structs.py: Context"]}
{"id": "C37", "title": "Hypertag arguments are bound like Python arguments", "statement": "A hypertag call binds positional arguments in order, then keyword arguments by name, then defaults; it fails iff there are too many positional arguments, an unknown keyword, a formal attribute given twice, a missing non-default attribute, or a non-empty body without a body attribute. On success each formal attribute has exactly one value.", "quantifier": "every formal list and actual argument list", "why_tests_cant": "The space of calls is infinite; correctness is an iff.", "anchors": ["src/hypertag/core/ast.py: NODES.xblock_def.expand, _append_attrs"]}
{"id": "C38", "title": "A hypertag expansion depends on its arguments and globals only", "statement": "Local variables of one expansion of a hypertag are not visible in another expansion: the same call in the same global state gives the same output.", "quantifier": "every sequence of expansions", "why_tests_cant": "Leaks are visible only for particular histories of calls.", "anchors": ["src/hypertag/core/ast.py: NODES.xblock_def.expand, ImportedHypertag.expand"]}
{"id": "C39", "title": "Qualifiers ? and !", "statement": "An expression with '?' never fails and gives an empty string instead of any failure or false value; an expression with '!' either gives a true value or fails with a missing-value error; other values pass through unchanged.", "quantifier": "every expression, value and failure", "why_tests_cant": "Universal over sub-expressions and their failures.", "anchors": ["src/hypertag/core/ast.py: NODES.xexpression_root, NODES.xfactor, evaluate_with_qualifier"]}
{"id": "C40", "title": "Logical operators and conditional expression are lazy and Python-like", "statement": "and/or return the operand that determines the result and evaluate no operand after it; x if c else y evaluates only the selected operand; a missing else gives an empty string; 'not' returns the negated truth value.", "quantifier": "every list of operands", "why_tests_cant": "Universal over operands.", "anchors": ["src/hypertag/core/ast.py: xor_test, xand_test, xnot_test, xifelse_test"]}
{"id": "C41", "title": "Operator chains evaluate like in Python", "statement": "A chain of binary operators of equal precedence is evaluated with Python's associativity, and chained comparisons are conjunctions.", "quantifier": "every chain", "why_tests_cant": "Chains of any length.", "anchors": ["src/hypertag/core/ast.py: NODES.chain_expression, xpow_expr, xcomparison"]}
{"id": "C42", "title": "Filter pipelines", "statement": "x:f1(a1):f2(a2)... equals ...f2(f1(x,a1),a2)..., for any number of filters, with the piped value passed as first argument.", "quantifier": "every pipeline", "why_tests_cant": "Any length.", "anchors": ["src/hypertag/core/ast.py: NODES.xpipeline, partial"]}
{"id": "C43", "title": "Unpacking assignment", "statement": "An assignment to several (nested) targets succeeds iff the value is a sequence of the matching length at each level, and then each variable gets the corresponding item; a trailing comma after a single target unpacks a one-element sequence.", "quantifier": "every nested target list and value", "why_tests_cant": "Nesting and lengths are unbounded.", "anchors": ["src/hypertag/core/ast.py: NODES.xtargets.assign"]}
{"id": "C44", "title": "Chained tags nest in order", "statement": "In a chain t1 : t2 : ... : tn applied to a body the output is t1(t2(...tn(body))).", "quantifier": "every chain of tags", "why_tests_cant": "Any length.", "anchors": ["src/hypertag/core/ast.py: NODES.xtags_expand.apply_tags"]}
{"id": "C45", "title": "Import paths are joined like in Python", "statement": "join_path: absolute paths are returned unchanged; each leading dot after the first climbs one level of the base package; climbing beyond the top is an error.", "quantifier": "every base path and relative path", "why_tests_cant": "Universal over paths.", "anchors": ["src/hypertag/core/runtime.py: join_path"]}
{"id": "C46", "title": "Modules are loaded once and the first loader wins", "statement": "A script or module imported many times is loaded and translated once; import order of loaders decides; a missing module raises an import error. An absolute path names the script given by the loader's own function, or else that of the Python package, of the current folder, or of the folder of the importing script, in this order. The built-in symbols are imported once, from the modules listed, of which the last one wins.", "quantifier": "every history of imports", "why_tests_cant": "Histories are unbounded.", "anchors": ["src/hypertag/core/runtime.py: Loader.load, HyLoader.load, Runtime.import_module, Runtime.import_builtins"]}
{"id": "C47", "title": "Exported symbols of a script", "statement": "A script exports exactly the variables and hypertags defined or imported at its top level; wildcard import brings all of them except names starting with underscore.", "quantifier": "every script", "why_tests_cant": "Depends on all names, including names of built-ins.", "anchors": ["src/hypertag/core/ast.py: HypertagAST.analyse, NODES.xdocument.analyse, NODES.xwild_import"]}
{"id": "C48", "title": "Context variables", "statement": "A script can read exactly the context symbols it declares; a declared symbol missing from the dynamic context is an error; undeclared ones have no influence on the output.", "quantifier": "every context and script", "why_tests_cant": "Universal over contexts.", "anchors": ["src/hypertag/core/ast.py: xcontext_import, HypertagAST.make_context", "src/hypertag/core/runtime.py: Runtime.translate"]}
{"id": "C49", "title": "Parsing terminates on every script", "statement": "The parser gives a result (a tree or a syntax error) for every text.", "quantifier": "every text", "why_tests_cant": "Infinitely many inputs; a left-recursive or empty-looping rule is triggered by specific inputs only.", "anchors": ["src/hypertag/core/grammar.py", "src/hypertag/core/ast.py: Grammar"]}
{"id": "C50", "title": "The parse tree covers the script", "statement": "Concatenation of the texts of the leaves of the parse tree is exactly the parsed text: no character of the script is lost or duplicated by the parser.", "quantifier": "every accepted script", "why_tests_cant": "Universal over scripts and trees.", "anchors": ["src/hypertag/core/grammar.py", "src/hypertag/core/ast.py: Grammar"]}
{"id": "C51", "title": "Verbatim and plain blocks reproduce their text", "statement": "Rendering a script consisting of a one-line verbatim block gives the text itself, and of a one-line plain block gives the HTML-escaped text.", "quantifier": "every one-line text", "why_tests_cant": "Each character of the text could trigger another grammar rule.", "anchors": ["src/hypertag/core/grammar.py: block_verbat, block_normal", "src/hypertag/core/ast.py: xline_verbat, xline_normal"]}
{"id": "C52", "title": "Comments never reach the output", "statement": "Inserting a comment block changes nothing in the rendered output except its own lines.", "quantifier": "every comment text", "why_tests_cant": "Universal over comment contents.", "anchors": ["src/hypertag/core/ast.py: xblock_comment", "src/hypertag/core/grammar.py: block_comment"]}
{"id": "C53", "title": "Syntax error location", "statement": "The reported line of a syntax error is the first line such that the script cut after that line cannot be parsed.", "quantifier": "every invalid script", "why_tests_cant": "Binary search relies on monotonicity.", "anchors": ["src/hypertag/core/ast.py: HypertagAST._locate_error"]}
{"id": "C54", "title": "Text utilities: crop, merge, inline, unique, dedent", "statement": "crop returns a prefix of the text followed by the end marker and never exceeds the length limit plus leeway; merge leaves the words in order with single spaces; inline leaves no newline; unique keeps the first occurrence of every line in order; dedent leaves no line starting with whitespace and keeps all other characters.", "quantifier": "every text and parameters", "why_tests_cant": "Universal over texts.", "anchors": ["src/hypertag/std/builtins.py"]}
{"id": "C55", "title": "cycle and changes", "statement": "cycle(s1..sn) gives as many tuples as the selected sequence has items, the i-th holding s_j[i mod len(s_j)]; changes pairs each item with a flag telling if it differs from the previous one.", "quantifier": "every list of sequences", "why_tests_cant": "Universal over lengths.", "anchors": ["src/hypertag/std/builtins.py: cycle, changes"]}
{"id": "C56", "title": "A page written as a script renders to the HTML it stands for", "statement": "For a document made of nested tags with string attributes, one-line texts of the three styles, comments, blank lines and layout modifiers, the script that spells it out is parsed, translated and rendered to exactly the HTML text of the document: every tag opened and closed in its place, attributes and plain texts escaped, the blank lines and the indentation of the script kept as far as no modifier changes them, comments left out.", "quantifier": "every document of this kind, of any depth and size, every choice of indentation, every runtime with these tags among its built-in symbols", "why_tests_cant": "The composition of preprocessor, grammar, tree construction, scoping, translation, indentation and rendering is tested on particular scripts only; a character in a text or attribute could trigger another rule at any of these stages.", "anchors": ["src/hypertag/core/ast.py: HypertagAST, NODES", "src/hypertag/core/grammar.py", "src/hypertag/core/dom.py: Node.render", "src/hypertag/core/tag.py: Markup", "src/hypertag/core/runtime.py: Runtime.render"]}
{"id": "C57", "title": "Operators are parsed by their priorities", "statement": "An expression written out in a text block, with blanks around the operators and parentheses exactly where an operand has an operator of lower (or the same) priority than its place allows, is parsed to the syntax tree of that expression: tail operators, **, multiplicative, additive with unary minus, shifts, & ^ |, pipeline, concatenation, comparison and membership chains, not, and, or, if-else, with lists, tuples, sets, dictionaries, calls, indices, slices, qualifiers and filters nested at any depth. Different expressions never have the same text.", "quantifier": "every expression of any depth over these operators, names, decimal numbers, strings in either kind of quotes with escapes and embedded expressions, raw strings, True, False and None; names do not begin with True, False or None, further operands of a concatenation begin with a letter, digit or quote, the right operand of 'is' does not begin with 'not' (theorems show that the parser misreads these)", "why_tests_cant": "The grammar is a parsing expression grammar with ordered choices: a rule that commits too early changes the reading of some combination of operators only, and the combinations are unbounded.", "anchors": ["src/hypertag/core/grammar.py: expr rules", "src/hypertag/core/ast.py: chain_expression, simple_chain_expression, xconcat_expr, xpipeline", "docs/index.md: Operators"]}
{"id": "C58", "title": "A template renders to the HTML of its instance", "statement": "A template is a page whose texts (of one or several lines), attributes and shortcuts hold expressions in braces, with conditional blocks (if, elif, else), loops over sequences with one or more variables, loops with a condition (while, else), alternatives (try, else), assignments (also in place, x += e) and a list of names taken from the context. Given values for these names and what Python answers to its operations, the script that spells the template out is parsed, analysed, translated and rendered to exactly the HTML of the instance: the tags and texts of the branches chosen, of the first alternative that raises no exception and of the body of a loop once per item or round, with the values of the expressions put in, escaped according to the style of the text, and with variables known where the block that introduces them reaches.", "quantifier": "every template of this kind, of any depth and size, every choice of indentation, all values of the context, every behaviour of Python's operations, every runtime with the tags and variables used", "why_tests_cant": "Templates combine scoping, control flow, evaluation and layout; a slot, branch or newline may go wrong only for a particular nesting, and nestings and values are unbounded.", "anchors": ["src/hypertag/core/ast.py: xblock_if, xblock_try, xblock_for, xblock_while, xblock_assign, xblock_struct, xblock_context", "src/hypertag/core/grammar.py", "src/hypertag/core/dom.py: Node.render", "src/hypertag/core/runtime.py: Runtime.render"]}
{"id": "C59", "title": "Values cannot alter the structure of the page", "statement": "If all texts of a template are plain, the rendered page is read back by an HTML reader as exactly the tags of the instance, properly nested, with the exact values of attributes and texts as they were before escaping; no value, whatever characters it contains, adds, removes or changes a tag, an attribute or another text.", "quantifier": "every template with plain texts only, all values of its variables, every runtime", "why_tests_cant": "Injection needs a value nobody thought of in a place where escaping was forgotten; tests try a few values in a few places.", "anchors": ["src/hypertag/core/ast.py: xblock_normal, attribute", "src/hypertag/std/html.py: html_escape", "src/hypertag/core/tag.py: Markup", "src/hypertag/core/dom.py: Node.render"]}
{"id": "C60", "title": "Hypertags expand to their definitions", "statement": "A script defines hypertags (name, optional body, parameters with and without default values, a block of template lines that may use hypertags defined earlier) and then uses them, with arguments given by position or by name and with a text or a block as the body. The script is parsed, analysed, translated and rendered to the HTML of the template in which every use stands for the lines of its definition: parameters have the values of the arguments, default values are computed with the variables of the script, the lines given as the body appear at the place of the body, with the indentation of that place and computed with the variables of the place of use.", "quantifier": "every list of definitions, every template using them at any depth, all argument values, every runtime", "why_tests_cant": "An expansion combines argument binding, the scope of the definition, the scope of the body and two indentations; errors show only for particular nestings of uses inside bodies of other uses, and these are unbounded.", "anchors": ["src/hypertag/core/ast.py: xblock_def, xblock_embed, xtag_expand, ImportedHypertag", "src/hypertag/core/dom.py: set_indent", "src/hypertag/core/grammar.py: block_def", "src/hypertag/core/runtime.py: Runtime.render"]}
{"id": "C61", "title": "A template that cannot be evaluated raises an exception", "statement": "If the instance of a template (with definitions of hypertags) needs something that Python refuses (an operation, member, item, slice or call that raises, a loop over something that is no sequence, the wrong number of values for the targets of an assignment or loop, a required value that is empty, a missing, superfluous or repeated argument of a hypertag, a body given to a hypertag that takes none), Runtime.render raises an exception and gives no HTML; what lies in a branch that is not taken, or in the body of a loop over nothing, raises nothing.", "quantifier": "every template with definitions, at any place and depth, all values of the context, every behaviour of Python's operations, every runtime", "why_tests_cant": "An exception may be swallowed at any of the nested levels (qualifiers, attributes, bodies, expansions); tests check a few places.", "anchors": ["src/hypertag/core/ast.py: evaluate, translate methods", "src/hypertag/core/runtime.py: Runtime.render"]}
{"id": "C62", "title": "Escape sequences in strings", "statement": "A text between quotes stands for the string that Python's table of escape sequences assigns to it: one character after a backslash, up to three octal digits, two, four or eight hexadecimal digits after x, u, U; a backslash that begins none of these stands for itself; a code with wrong digits or beyond the last character is rejected. The meaning is unique, and every string, with quotes, backslashes, line breaks and the characters $ { } in it, can be written as a literal of either kind on one line and is parsed to exactly that string.", "quantifier": "every text, every string, both kinds of quotes, every lexicon", "why_tests_cant": "The regular expression and the decoder interact: an escape may end where another begins (backslashes before letters, digits after octal codes); tests try single escapes.", "anchors": ["src/hypertag/core/ast.py: decode_escapes 34-52, 1779-1781", "src/hypertag/core/grammar.py: string rules 270-285", "docs/index.md 998-1000"]}
{"id": "C63", "title": "Errors name the place in the script", "statement": "An error that is reported at a construct of a script gives the number of a line of the script as it was written, and the column in this line right behind the last visible character of the construct, both counted from 1, although positions are known only in the translated text, in which indentation has been replaced by marks. The visible characters of the script up to this place are those of the translated text up to the end of the construct; a construct within one line stands right before the place. The excerpt is the text of the construct, or its first twenty characters and three dots.", "quantifier": "every script and its translation; every construct whose marks of indentation are paired, which are all nodes of every syntax tree apart from the marks themselves, raw strings and import paths over several lines, and what contains them", "why_tests_cant": "The column is put together from counts of four marks before the beginning and a line break before the end of the construct; blank lines, tabs, several levels closed at once and blocks that contain blocks all enter; the tests check that exceptions are raised, not where.", "anchors": ["src/hypertag/nifty/parsing.py: ParserError 17-39, text 194-201", "src/hypertag/core/errors.py: make_msg 5-27", "src/hypertag/core/grammar.py: rules 17-300, Grammar.preprocess"]}
{"id": "C64", "title": "Imported hypertags expand as in their own script", "statement": "A script takes hypertags from scripts in the same folder (from .name import %a, %b), which may take hypertags from others in turn, at any depth. It is parsed, analysed, translated and rendered to the HTML of the template in which every use of an imported hypertag stands for the lines of its definition in the script it comes from: the variables in these lines are those of that script, with the values they had at its end, the hypertags in them those known at the definition; parameters and the body come from the place of use. Variables of the two scripts with the same name do not touch each other, and the output of the imported script appears nowhere. If an imported script raises an exception, so does the script that imports from it.", "quantifier": "every library of scripts in a folder, every script importing from it, at any depth of imports, all values of the context, every behaviour of Python's operations, every runtime that finds these files", "why_tests_cant": "An imported hypertag is expanded in the state of another script, whose slots are numbered from the same start; a lookup in the wrong state shows only if the two scripts have different symbols in the same slot; the nesting of imports is unbounded.", "anchors": ["src/hypertag/core/ast.py: ImportedHypertag 99-117, xblock_import 676-702, xname_import 722-742", "src/hypertag/core/runtime.py: HyLoader.load 227-285, Runtime.import_module 343-352, translate 354-364"]}
{"id": "C65", "title": "Templates of Django", "statement": "The engine for Django takes the text of the first file that exists among the candidates, and otherwise reports all of them in order. Rendering a template is Runtime.render of its text, with its file name as the place to start relative imports from: the script finds the values of the context under their names, and with a request the request itself, csrf_input and csrf_token. Together with the earlier properties: the template renders to the HTML of its instance. A template rendered with a context gives the same page as before when the context has been used for another template.", "quantifier": "every list of candidate files, every template, all contexts and requests, every runtime", "why_tests_cant": "Which file is taken, and from which folder imports start, depends on the other templates rendered with the same dictionary; tests render one template with one context.", "anchors": ["src/hypertag/django/backend.py: Hypertag.get_template 47-61, Template.render 71-81", "src/hypertag/core/runtime.py: Runtime.render 366-369, HyModule.translate 114-118"]}
{"id": "C66", "title": "Layout modifiers: append and dedent", "statement": "A block with the modifier '...' continues the line of the block before it, whatever stands before and behind: the output is that of the two parts put together, with a newline only for each blank line in between, while without the modifier there is one newline more. Alone inside an element it stands between the tags in their line, and its further lines keep the indentation. Blocks with the modifier '<' have the indentation of the enclosing element, together with everything inside them. The modifiers have this effect in front of blocks of every type, control blocks included, and inside of control blocks.", "quantifier": "all pages, all positions of the modifiers, at any depth", "why_tests_cant": "The newline in front of a block and its indentation are attributes of DOM nodes, changed again by each enclosing block; which change wins depends on the nesting.", "anchors": ["src/hypertag/core/ast.py: xblock 430-461, indent, dedent 1814-1831", "src/hypertag/core/dom.py: set_indent 132-134 309-317, set_outline 306-307, render", "docs/index.md 353-415"]}
{"id": "C67", "title": "Definitions and imports that are not used have no effect", "statement": "A hypertag may be defined, anywhere among the definitions of a script, without changing what the script renders to, as long as nothing uses it; whether its own lines could be evaluated does not matter. The same holds for further import lines and further names in them, if the imported scripts can be evaluated: these are executed even if nothing of them is used.", "quantifier": "every script, every further definition and import, all values of the context, every behaviour of Python's operations, every runtime", "why_tests_cant": "Each definition and each import takes a slot of the state and shifts those of all later symbols; a collision shows only for particular sequences of symbols.", "anchors": ["src/hypertag/core/structs.py: State 355, Slot 409", "src/hypertag/core/ast.py: xblock_def 553, xblock_import 676-702", "src/hypertag/core/runtime.py: HyLoader.load 227-285"]}
{"id": "C68", "title": "The order of definitions and imports does not matter", "statement": "Definitions of a script can be put in any other order in which every hypertag is still defined before it is used, and import lines in any order, if the imported scripts can be evaluated: the script renders to the same HTML, or raises an exception as before. Blank lines move with the definitions and leave the output the same, since they all stand in front of it.", "quantifier": "every script, every permutation of its definitions and import lines, all values of the context, every behaviour of Python's operations, every runtime", "why_tests_cant": "A hypertag resolves names when it is analysed and reads slots when it is expanded; both depend on what was defined before; the number of orders grows exponentially.", "anchors": ["src/hypertag/core/structs.py: State 355, Slot 409", "src/hypertag/core/ast.py: xblock_def 553, xblock_import 676-702", "src/hypertag/core/runtime.py: HyLoader.load 227-285"]}
{"id": "C69", "title": "Definitions can be moved to an imported script", "statement": "A script that imports hypertags from a script consisting of their definitions renders to the same HTML as the script with these definitions in their place, or both raise exceptions, if the template assigns none of the variables that are known without it and the context gives none of them anew: the definitions see these variables with the same values in both places. The names the definitions give to their parameters and local variables may be those of the script.", "quantifier": "every list of definitions, every template and library, all values of the context, every behaviour of Python's operations, every runtime that finds the file", "why_tests_cant": "The two scripts number the slots of their states differently, and the imported hypertag is expanded in a copy of the other state; that both lookups find the same values depends on all symbols of both scripts.", "anchors": ["src/hypertag/core/ast.py: ImportedHypertag 99-117, xblock_def 553, xname_import 722-742", "src/hypertag/core/structs.py: State 355, Slot 409", "src/hypertag/core/runtime.py: HyLoader.load 227-285"]}
{"id": "C70", "title": "Names of hypertags do not matter", "statement": "A script in which hypertags get other names, and the bodies of their definitions other names as well, renders to the same HTML, or raises an exception as before. The new names must be different from each other and from those of the tags and variables known to the script.", "quantifier": "every script with definitions, all other names, all values of the context, every behaviour of Python's operations, every runtime", "why_tests_cant": "Names decide about slots during analysis and about the columns of everything that follows in the line; whether something still refers to an old name, or depends on a column, shows only for particular names and values.", "anchors": ["src/hypertag/core/ast.py: xblock_def 553, xtag_expand 1122, block_text 464-500", "src/hypertag/core/structs.py: State 355, Slot 409"]}
{"id": "C71", "title": "Uses of hypertags can be replaced by their contents", "statement": "Where a hypertag defined without a body is used, assignments of the arguments, or default values, to the names of the parameters, followed by the lines of the definition, can be written instead, at any depth, in loops, conditional blocks and bodies of other hypertags: the script renders to the same HTML, or raises an exception as before. The names assigned in the definition, with those of the parameters, must not be used by the template for other variables, and the definition must contain a line of output. The same holds for hypertags with a body, with the lines of the body in its place, for scripts that render and bodies that assign only variables of their own.", "quantifier": "every script with definitions, every hypertag, all uses at once, all values of the context, every behaviour of Python's operations, every runtime", "why_tests_cant": "The hypertag is analysed once, with slots of its own, and expanded in a copy of the state; its lines in the template use other slots, those of the template, several times; whether values leak from one place to another shows only for particular combinations of names and blocks.", "anchors": ["src/hypertag/core/ast.py: xblock_def 553-672, xtag_expand 1122, xblock_assign 988", "src/hypertag/core/structs.py: State 355, Slot 409"]}
{"id": "C72", "title": "Names of variables do not matter", "statement": "A script in which variables, parameters and bodies of hypertags get other names, with the named arguments of their uses, and in which the values of the context are given under the new names, renders to the same HTML, or raises an exception as before. Different names must stay different; built-in variables and the attributes of HTML tags keep their names.", "quantifier": "every script with definitions, all injective renamings, all values of the context, every behaviour of Python's operations, every runtime", "why_tests_cant": "Names of variables decide about slots during analysis, about the matching of arguments, and about the columns of what follows in the line; whether two of them are mixed up, or a column matters, shows only for particular names and values.", "anchors": ["src/hypertag/core/structs.py: State 355, Slot 409", "src/hypertag/core/ast.py: xblock_def 553-672, xblock_assign 988, xtag_expand 1122, block_text 464-500"]}
{"id": "C73", "title": "Comments end where they should", "statement": "What the tag %comment puts out is read by a browser as one comment whose data is the body, with a newline at the end if the body begins with one, and nothing of what follows belongs to it, if and only if the body does not close a comment itself. Plain text, which is escaped, never does, at whatever indentation the comment stands in the document. Nor do elements, if no name in them ends with a hyphen or an exclamation mark. The tag takes no attributes.", "quantifier": "every body, every text that follows", "why_tests_cant": "Comments of HTML end at several different marks, some of which are only recognised at the beginning; a body has to contain one of them in the right place.", "anchors": ["src/hypertag/std/html.py: comment.expand 86-94, html_escape 14-18"]}
