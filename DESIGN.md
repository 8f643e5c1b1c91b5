# Formal model of hypertag: design and trusted base

## 1. Approach

The Python source in `/repo/src/hypertag` is modelled function by function in Gallina
(`rocq/theories`). Text is a list of Unicode code points (`str := list N`). Exceptions are values
(`result`: `Ok`/`Raise`; with a machine state `out`: `Done`/`Exc`/`Fuel`). Loops over data are
structural recursion. Unbounded recursion (expansion of hypertags, `while`, nested imports, the PEG
matcher) uses fuel with an outcome `Fuel` of its own, never confused with a Python exception; theorems
exclude it or prove that it does not occur (C32_bound_irrelevant, C49). DOM nodes are mutable and
shared in the code, so they live in an explicit heap; values of variables live in slots of explicit
states, as in `core/structs.py`.

File layout:

* plain names (`Html`, `Indent`, `Preprocess`, `Structs`, `Dom`, `Ast`, `Machine`, `Eval`, `Translate`,
  `Analyse`, `Paths`, `Runtime`, `Peg`, `Grammar`, `Syntax`, `Builtins`, `HtmlTags`, …): the model, each
  definition with a comment citing file and lines of `/repo`;
* `*Spec.v`: small independent specifications, written without the model's helpers;
* `*Facts.v`, `Page*.v`, `Tmpl*.v`, `ParseRun.v`, `ParseTools.v`, `OperParse.v`: lemmas;
* `*Proofs.v`: last proof steps and sample data of the theorems of the `Prop*.v` file of the same name;
* `Prop*.v`: the property theorems with `Print Assumptions` beneath and `Example`s beside; nothing else;
* `Ref.v`, `Samples.v`, `*Samples.v`: concrete environments and scripts for the examples;
* `Conf*.v`: conformance examples (section 6).

Theorem names start with the id of their property. `…_refuted` is the negation of a claim, with a
witness; `…_partial` is a theorem that needs a hypothesis the English property does not have.

## 2. Trusted base

* The kernel of Coq 8.16.1, including its virtual machine (`vm_compute` is used for witnesses, examples
  and the finite checks on the grammar and on the table of HTML tags). No plugin, no native compilation.
* Axioms: none. `Print Assumptions` is run beneath each of the 294 property theorems and prints
  "Closed under the global context" for every one of them. There is no `Axiom`, `Parameter`,
  section-less `Variable`, `Admitted`, functor, module type or disabled check.
* The reading of `/repo`: the code is not executed here, so the tie between model and code is the
  citation at each definition, checked by reading, and the conformance examples of section 6.
* Parsimonious 0.8.1 (the PEG library) is not in `/repo`; `Peg.v` follows its published code
  (alternatives in order, greedy repetition without backtracking, empty match ends a repetition). The
  packrat cache is left out: matching has no side effects, so the cache changes running time only.
* Python itself: `str` methods used by the code (`PyStr.v`), dictionaries as association lists in
  insertion order (`PyDict.v`), `re` for the handful of regular expressions involved (modelled by hand
  where used), `xml.sax.saxutils.quoteattr`. Unicode tables and `float()` are a parameter (`lexicon`)
  over which the theorems quantify.
* What Python values do (arithmetic, attribute access, calls of functions, truth tests, conversion to
  `str`, iteration) is a record of functions `prims W` (`Machine.v`) over an arbitrary world `W`; file
  system and `importlib` are a record `env W` (`Runtime.v`). Theorems quantify over all such records and
  worlds; a primitive may read and change the world and raise any exception. Assumptions on them, where
  needed, are hypotheses in the theorem (e.g. `sound_truth` in C39/C40). What a primitive cannot do in
  the model is listed in section 4.

## 3. What is modelled

| source | model |
|--------|-------|
| `std/html.py` 1-95 | `Html.v` (escaping, markup), `HtmlTags.v` (tables of tags, registry) |
| `core/tag.py` 1-139 | `Html.v` (attributes, `Markup`), `Dom.v` (render through a tag), `Translate.v` |
| `core/dom.py` 1-450 | `Dom.v`: constructors, flattening, `walk`, `select`, `skip`, `alter`, `copy`, indexing and slicing, `set_indent`, `relative_indent`, `render`, `Root`, `Text` |
| `core/structs.py` 1-467 | `Structs.v` (`Stack`, `MultiDict`, `Context`), `Machine.v` (`State`, `Slot`), `Analyse.v` (contexts during analysis) |
| `core/grammar.py` 1-335 | `Preprocess.v` (symbols), `Grammar.v` (every rule, as data) |
| `core/ast.py` 1-2063 | `Preprocess.v` (`Grammar.preprocess`, `get_parser`), `Ast.v`/`Syntax.v` (tree construction, `setup`, `HypertagAST` and `_locate_error`), `Analyse.v` (`analyse`), `Eval.v` (`evaluate`), `Translate.v` (`translate`, `expand`, `render` of text blocks) |
| `nifty/parsing.py` 1-364 | `Syntax.v` (rewriting of the tree: ignored, reduced and compacted nodes) |
| `nifty/parsing.py` 17-39, 194-201 (`ParserError`, `text`), `core/errors.py` 5-27 | `Errors.v` (line, column and excerpt of a located error) |
| `nifty/util.py` (the functions used: `add_indent`, `get_indent`, `del_indent`, `flatten`, …) | `Indent.v`, `Dom.v` |
| `core/runtime.py` 1-371 | `Paths.v` (`join_path`), `Runtime.v` (loaders, caches, import, translate, render) |
| `std/builtins.py` 10-155 | `Builtins.v` |
| `django/backend.py` 43-81 | `Django.v` |
| `std/registry.py`, `hypertag/html.py`, `hypertag/builtins.py` | `HtmlTags.v`, `ConfRef.v` |

## 4. What is not modelled

* `django/filters.py` (re-exports Django's filters), Django's own classes used by `django/backend.py` (parameters of
  `Django.v`), `core/run_html.py`, `core/xml_chars.py` (unused tables),
  `__repr__`s and the wording of error messages (only the class of an exception, and the line number of
  `IndentationError` and of located syntax errors; for other located errors, the line, column and excerpt, given the
  node, but not which node is passed with which exception).
* Python code called from a script that alters DOM nodes or variables of the script, or that calls an
  embedded hypertag back during the call (`Machine.v`); it can return nodes and change the world.
* Generators inside of lists given to `DOM(...)` (`Translate.v`): lists and tuples only.
* `module.location`, which is written but never read (`Runtime.v`); limits on the number of digits in
  `int()` (`Syntax.v`); `lower`/`upper` of `std/builtins.py` (Unicode tables).
* The `indentation` attribute of `Stack`, not used by the compiler (`Structs.v`).
* Modules whose `__tags__` is not a dictionary of `Tag` objects.
* Python's recursion limit and memory: the model runs out of fuel instead of raising RecursionError.
* Error positions of Parsimonious: the code locates errors by its own search, which is modelled.
* Functions of `nifty/util.py` that the template language does not use.

## 5. Properties, theorems, findings

| id | property | status | file | theorems |
|----|----------|--------|------|----------|
| C01 | Plain-text escaping is safe and lossless | proved | PropHtml.v | escape_safe, escape_lossless, escape_injective |
| C02 | Escaping commutes with splitting the text | proved | PropHtml.v | escape_app, escape_pieces, escape_lines |
| C03 | An attribute value can never break out of its quotes | proved | PropHtml.v | quoted_value, no_raw_markup, rendered_attribute |
| C04 | Boolean and duplicate attributes | proved | PropCall.v, PropHtml.v | merged, boolean_attributes, attributes_in_order, single_spaces |
| C05 | Shape of a rendered element | proved | PropCustom.v, PropHtml.v | custom_read, custom_one, element_shape, element_read, void_element, positional_rejected, custom_name_unescaped_refuted, comment_breakout_refuted |
| C06 | Rendered markup is well-formed | proved | PropRender.v | well_formed |
| C07 | Re-indentation touches exactly the non-empty lines | proved | PropIndent.v | add_indent_lines, line_count |
| C08 | Nested indentation adds up | proved | PropIndent.v | nested, nested_blocks |
| C09 | Common indentation is detected exactly | proved | PropIndent.v | common, longest, blank_text |
| C10 | Removing the common indentation is line-wise and reversible | proved | PropIndent.v | line_wise, nothing_left, reversible |
| C11 | Layout of text blocks | partial | PropIndent.v | layout_partial, relative_indentation_partial, single_line, empty, empty_headline_refuted, tab_tail_refuted |
| C12 | Indentation symbols never collide with script characters | proved | PropPreprocess.v | symbols_fresh, symbols_bound, symbol_may_be_space_refuted |
| C13 | Indentation symbols are balanced | proved | PropPreprocess.v | balanced |
| C14 | Preprocessing is lossless | proved | PropPreprocess.v | lossless_general, lossless, injective, other_whitespace_refuted |
| C15 | Indentation errors are raised exactly when they should be | proved | PropPreprocess.v | indentation_error, accepted, no_assertion |
| C16 | Line numbers survive preprocessing | proved | PropPreprocess.v | line_numbers |
| C17 | Scope stack behaves like lexical scoping | proved | PropStructs.v | scope, pop, reset_restores |
| C18 | Snapshot of the symbol table | proved | PropStructs.v | asdict, pushnew, leave_block |
| C19 | Traversal visits every node once, in the declared order | proved | PropDom.v | walk, once, other_order |
| C20 | select() returns exactly the nodes satisfying the constraint | partial | PropDom.v | select_partial, select_tag_partial, attr_search_refuted, attr_search_fails |
| C21 | skip() prunes a copy and leaves the original intact | partial | PropDom.v | skip_partial, attr_skip_refuted |
| C22 | copy() is deep and equal | proved | PropDom.v | copy, same_text, independent |
| C23 | alter() replaces nodes in the documented order | partial | PropDom.v | preorder_is_bottom_up, postorder_is_top_down, documented_preorder_refuted, documented_postorder_refuted |
| C24 | Flattening of nested sequences | proved | PropDom.v | flatten, bad_items, total, idempotent |
| C25 | Slicing a DOM | partial | PropDom.v | index_partial, index_error, slice_contents_partial, slice_refuted |
| C26 | Rendering is indented by the position in the tree | proved | PropRender.v | sum_of_indents, enclose, document |
| C27 | A DOM embedded twice is rendered properly in both places | partial | PropBlocks.v | shared_refuted, discarded_refuted, embed_partial |
| C28 | Current indentation is restored after every block, also on failure | proved | PropBlocks.v | body, block, expansion, expression |
| C29 | try block picks the first alternative that does not fail | partial | PropBlocks.v | first_success, never_raises_partial, never_raises_refuted |
| C30 | if block selects the first true branch lazily | proved | PropBlocks.v | first_true |
| C31 | for block | partial | PropBlocks.v | each_item_partial, else_refuted, else_variable_refuted |
| C32 | while block | proved | PropBlocks.v | iterations, bound_irrelevant |
| C33 | Variables of a tagged block are local to it | partial | PropRuntime.v, PropScope.v | runtime_partial, block_partial, document_partial, refuted |
| C34 | Control blocks share the namespace of their surroundings | partial | PropScope.v | refuted, block_partial, document_partial |
| C35 | Undefined names are detected statically | partial | PropScope.v | undefined_partial, nothing_done_partial, defined_partial, refuted |
| C36 | Tags and variables live in separate namespaces | proved | PropScope.v | distinct, symbols, definition, assignment, tags_kept |
| C37 | Hypertag arguments are bound like Python arguments | proved | PropCall.v | binding |
| C38 | A hypertag expansion depends on its arguments and globals only | partial | PropScope.v | refuted, outside_partial |
| C39 | Qualifiers ? and ! | partial | PropExpr.v | root, factor, optional_partial, required_partial, optional_refuted, required_refuted |
| C40 | Logical operators and conditional expression are lazy and Python-like | partial | PropExpr.v | and, or, ifelse, not_partial, not_not_refuted |
| C41 | Operator chains evaluate like in Python | partial | PropExpr.v | chain_partial, bitwise, minus, power_refuted, comparison_refuted |
| C42 | Filter pipelines | proved | PropExpr.v | pipeline |
| C43 | Unpacking assignment | partial | PropCall.v, PropTmpl.v | unpacking, trailing_comma_refuted |
| C44 | Chained tags nest in order | proved | PropBlocks.v | order, nested_nodes |
| C45 | Import paths are joined like in Python | proved | PropPaths.v | join_path, every_relative_path, absolute, no_package, empty_package_refuted, dots_only_refuted |
| C46 | Modules are loaded once and the first loader wins | partial | PropLoad.v, PropOnce.v, PropRuntime.v | resolved, package_script, current_folder, near, package_name_refuted, builtins_once, builtins, empty_path, resolved_once, again_refuted, first_loader, missing, python_once, script_once_partial, reloaded_refuted, circular_refuted, folder_refuted, builtins_refuted |
| C47 | Exported symbols of a script | partial | PropRuntime.v | exported_partial, wildcard, refuted, python_symbols, python_names |
| C48 | Context variables | partial | PropRuntime.v | undeclared, missing, declared, values, context, render_partial, names, names_refuted |
| C49 | Parsing terminates on every script | proved | PropParse.v | parsing_ends, rules_total, accepts |
| C50 | The parse tree covers the script | proved | PropParse.v | leaves, nodes |
| C51 | Verbatim and plain blocks reproduce their text | proved | PropPage.v | verbatim, plain, line |
| C52 | Comments never reach the output | partial | PropPage.v, PropTmpl.v | pages_partial, refuted, templates_partial, raises_partial |
| C53 | Syntax error location | partial | PropParse.v | boundary, text, first_partial, first_refuted, truncation_refuted, other_errors, reported_refuted |
| C54 | Text utilities: crop, merge, inline, unique, dedent | proved | PropBuiltins.v | crop, crop_words, merge, inline, unique, dedent, dedent_blank_lines_refuted, dedent_common |
| C55 | cycle and changes | proved | PropBuiltins.v | cycle, cycle_empty_refuted, cycle_empty, changes |
| C56 | A page written as a script renders to the HTML it stands for | proved | PropPage.v | page, render, html_tags, void, capitals |
| C57 | Operators are parsed by their priorities | proved | PropOper.v | line, expression, unambiguous, excluded_names, excluded_is, excluded_concat, excluded_tight, excluded_minus, excluded_brace, qualifier_twice |
| C58 | A template renders to the HTML of its instance | proved | PropTmpl.v | template, render, excluded_marker, excluded_gap, excluded_outer, excluded_loop, excluded_kept, excluded_names, excluded_arguments, excluded_condition |
| C59 | Values cannot alter the structure of the page | proved | PropTmpl.v | read, excluded_markup |
| C60 | Hypertags expand to their definitions | proved | PropTmpl.v | script, render, excluded_chain, excluded_twice, excluded_gap |
| C61 | A template that cannot be evaluated raises an exception | proved | PropTmpl.v | script, render |
| C62 | Escape sequences in strings | proved | PropEsc.v | decode, rejected, unique, written, literal, excluded_quote, excluded_name, digits |
| C63 | Errors name the place in the script | partial | PropErrors.v | location_partial, nodes_partial, balanced, excerpt, begin_refuted, raw_string_refuted |
| C64 | Imported hypertags expand as in their own script | proved | PropBook.v | render, raises |
| C65 | Templates of Django | partial | PropDjango.v | found, missing, render_partial, no_context, string_partial, html_partial, shared_context_refuted, names_refuted |
| C66 | Layout modifiers: append and dedent | partial | PropLayout.v | append, inline, contents, dedent, dedent_nodes, control_refuted, inside_control_refuted |
| C67 | Definitions and imports that are not used have no effect | proved | PropMore.v | definitions, imports |
| C68 | The order of definitions and imports does not matter | proved | PropMore.v | definitions, imports |
| C69 | Definitions can be moved to an imported script | proved | PropMove.v | moved |
| C70 | Names of hypertags do not matter | partial | PropRename.v | renamed_partial, length_refuted |
| C71 | Uses of hypertags can be replaced by their contents | proved | PropInline.v | inlined, excluded_clash, excluded_blank, blocks, excluded_hidden |
| C72 | Names of variables do not matter | partial | PropVar.v | renamed_partial, length_refuted |
| C73 | Comments end where they should | partial | PropNote.v | exact, escaped, rendered, attributes, nested, nested_refuted, markup, excluded_hyphens |

How they are proved, by group:

* C01–C06, C54, C55: independent readers (entity decoder, attribute reader, markup reader, lines and
  words of a text); induction on texts and trees.
* C07–C16: texts as lists of lines; loop invariant of the preprocessor over lines.
* C17, C18: refinement of the symbol table to a list of bindings, for every history of operations.
* C19–C27: trees represented in the heap; freshness and frame invariants for `copy`, `skip`, `alter`;
  absolute renderer as specification of relative indentation.
* C28–C32, C37, C39–C44: one specification per construct over arbitrary computations for its parts.
* C33–C36, C38, C47, C48: invariants of analysis (slots, depths, names in scope) and a frame theorem
  for translation (a block changes only slots it or a definition writes).
* C45, C46: paths as lists of names; invariants of the caches over histories of calls.
* C49, C50, C53: well-formedness of the grammar (ranking, checked by computation) and a generic
  termination theorem for PEGs; relational PEG semantics; the search of `_locate_error` as bisection.
* C51, C52, C56: forward derivations for the parser (`ParseRun.v`), analysis, translation and rendering
  of all documents of a given shape (`PageSpec.v`).
* C66: blocks give pieces of output (text that continues a line, further lines with or without the indentation of
  the block); putting pieces together is shown to be concatenation of their texts, so C56 includes the modifiers.
* C57: expressions as an inductive type with a printer and the tree each stands for (`OperSpec.v`); forward
  derivations by induction over expressions, with what may follow an operand at each level of priority.

* C58: templates as an inductive type with a printer and an evaluator over named variables (`TmplSpec.v`); the
  text is parsed to its tree as in C56 and C57; analysis and translation are related to the evaluator by an
  invariant (each named variable of the scope lives in a slot known to the analysis, with the same value),
  by induction over templates; rendering as in C56.
* C60: the invariant of C58 extended by the hypertags: each defined name lives in a slot that holds a hypertag
  whose expansion, in any later state, gives the elements of its meaning; by induction over the definitions, with
  the induction over templates of C58 inside, for one more unit of fuel.
* C61: in the same induction as C58 and C60, each lemma says what happens if the meaning is an exception: the
  translation stops with an exception, in any state.
  An alternative of `try` that raises leaves the variables known and the nodes made before as they were (`fell`
  in `TmplScope.v`), so the next one runs as if it were the first.
* C67: an order on answers (left open, or the same) which the evaluator of C58, C60 and C64 respects; further
  hypertags can then change nothing, and the rest is C60, C61 and C64.
* C68: names known to two scripts have the same meaning in both, by induction over the place of the definition in one of
  them; blank lines of definitions add up.
* C69: the evaluator respects the order of C67 also for stores with further variables, as long as those of the
  smaller one are not assigned.
* C70: the order of C67 between a template and the one with the new names; definitions one by one. Hypertags used with
  a text in their line are the exception: the length of the name moves the marker.
* C71: a template and the one with the contents in place of the uses, with stores that agree on the variables of the first
  one; both are evaluated to elements with the same lines. For uses with a body twice the same induction: the template
  with the contents in place of the uses, and the contents with the body in its place.
* C72: evaluation commutes with an injective renaming of the store: equations by induction over expressions and templates.
* C73: a reader of HTML comments in the specification; induction over the body.
* C62: escape sequences as a table and a relation (`EscSpec.v`); both directions by induction.
* C63: net indentation (marks that open minus marks that close) along the translated text equals the indentation
  of the line, from the lemmas of C12-C16; that marks are paired in every node is an induction over matches, with a
  check of all rules by computation.
* C64: one step of C60 per script: translating a script of the library gives symbols whose expansion, in the final
  state of that script, has the meaning of the specification; induction over the depth of imports, then over import
  lines. The files are read as often as they are imported, so the invariant speaks about all later machine states.
* C65: lookup by induction over the files; rendering by reduction to C64.
* C59: corollary of C58 and C60; induction over the elements with the reader of C06.

### Findings

Claims a user would expect, false of the model; each witness was traced through the source.

* C05 `custom_name_unescaped`: names of attributes passed by `**kwargs` are not escaped.
  `comment_breakout`: the body of the `comment` tag can close the comment.
* C11 `empty_headline`: the padding of the marker stays in the output if the first line of a text block
  is empty. `tab_tail`: a tail indented with tabs keeps its indentation.
* C12 `symbol_may_be_space`: if a script uses enough dingbats, the preprocessor picks U+3000 (a space).
* C14 `other_whitespace`: lines indented with a form feed are confused with unindented ones.
* C20, C21: a search by attribute raises TypeError on every document with a text node.
* C23: `preorder` and `postorder` of `alter()` are swapped with respect to the documentation.
* C25: a slice of a DOM is a DOM holding one list: length 1, not renderable.
* C27: a DOM inserted twice shares nodes: the first copy takes the indentation of the last one; an
  insertion in a failed `try` branch leaves a trace (AssertionError in rendering).
* C29: a `try` block may itself raise AssertionError when it shares a body with an imported hypertag.
* C31: without a body, the `else` of a `for` is output once per item; variables in `else` always fail.
* C33, C38: all expansions of a hypertag share their local variables: they leak from one expansion into
  the next, and a recursive expansion changes those of the outer one.
* C34: an assignment to an inherited variable in a control block inside a tagged block is lost after it.
* C35: the `else` clause of a `for` with a body is never analysed; undefined names go unnoticed.
* C39: `?` does not catch a failure of the truth test; `!` lets other exceptions through.
* C40: `not not x` is `x`. C41: `2**3**2` is 64 and `3 > 2 > 1` is False.
* C43: a trailing comma after a single target is ignored: `$ a, = [1]` assigns the list.
* C45: a relative path with empty package name, or made of dots only, is joined wrongly.
* C46: a script imported by a relative path, found in a Python package or in the folder of the importing script is
  translated again for every name imported; circular
  imports do not end; folders that are not packages cannot be imported from; after a failed import of
  built-ins later scripts are translated without them; a script found in a Python package gets the path of the
  folder for its package name, so its relative imports of Python modules fail.
* C47: a variable named like a built-in symbol is not exported.
* C48: values given to `render()` under the names `self`, `builtins`, `__builtins__`, `__script__` raise TypeError,
  because they are passed on as keyword arguments.
* C65: rendering a Django template writes `__file__` into the dictionary of the caller; the next template rendered
  with the same dictionary looks for its imports in the folder of the first one.
* C66: the modifier `...` in front of a control block has no effect, and neither has `<` inside of a control
  block. A block appended after a blank line stands at the left margin of the enclosing element.
* C52: a comment line between the branches of a conditional block is a syntax error.
* C53: prefixes of a script are not monotone, so the reported line need not be the first bad one; other
  errors raised by a prefix hide the location of a syntax error.
* C57: `Trueish` is read as `True is h` and `x is nothing` as `x is not hing`; the concatenation `a (b, c)` is
  a call; `{a!=b}` without blanks is a syntax error, and so is a minus sign in front of any operand but the first,
  `{a + -b}`.
* C58: a blank line at the beginning of the body of an `if` or `for` comes out as two; `if a != b` and
  `if a | b` read the operator as the beginning of a text, `for x in a : f` is a syntax error; inside a tag,
  a variable of an outer level assigned in a loop that is not entered has no value afterwards; what a failing
  alternative of `try` has assigned is kept. The text below
  a marker with nothing behind it is fenced by line breaks, `<p>\ntext\n</p>`, but if it is indented to the right
  of the marker, it comes out as `<p>   \ntext</p>`, with as many spaces as there are characters up to the marker.
  A tag whose name begins with `try` is a syntax error, and one whose name begins with `else` is one behind `if`,
  `for` or `try`. An argument without a name cannot have a qualifier (AssertionError) nor stand behind a shortcut.
* C60: a chain that begins with a hypertag, `H : b | text`, raises AssertionError if the body of `H` is embedded
  at the top of its definition; with a block below, the block loses its indentation. A body used twice on
  adjacent lines loses the line break between the copies. A hypertag whose expansion is empty gives a blank line.
* C62: the quote that ends a string cannot be written as `\"` or `\'`; `\N{DASH}` is `\N` and an embedded
  expression; a code with wrong digits raises ValueError; one cut short is kept as text.
* C63: errors are located at the end of the construct; in a raw string over lines of different indentation, and
  behind it in whatever contains it, the column is wrong by the difference.
* C70: how many blanks are removed in front of the second line of an embedded value depends on the length of the name of
  the tag in front of it: `box | {x}` and `longer_box | {x}` give different texts.
* C72: the same for the length of the names of variables in attributes in front of the text: `p lang={a} | {v}` and
  `p lang={language} | {v}` can give different output for the same values.
* C73: comments do not nest: `comment` inside of `comment` ends the outer one, and the rest of it becomes text;
  an attribute with a name like `data--` and the value True ends a comment, too.
* C54: `dedent(full)` removes blank lines. C55: `cycle` with an empty sequence yields nothing.

Seen while reading, not stated as theorems: `$ a = 1,` is no tuple; unary minus binds weaker than `*` (documented); an empty
iterable unpacked to two or more targets is reported as having one value; too many values leave
earlier targets assigned.

## 6. Conformance and mutation testing

`Conf*.v` run the scripts of `tests/test_main.py` and of `docs/index.md` through the whole model (parser,
analysis, translation, rendering) and compare with the expected outputs written there; the few left out
are named in the headers. These are tests of the model, not proofs; no theorem depends on them.

`seeded/LOG.jsonl` records 330 edits of the model in a scratch copy (wrong boundary, missed case,
swapped argument, dropped update), the claim broken, the theorems that failed and, where a theorem
survived, how it was tightened. Names of theorems in the log are the current ones.

`vcheck` and `coqchk` list constants of `Coq.ssr.ssrunder` as axioms of loaded libraries: these belong
to the module `Under_rel` loaded by ssreflect; no theorem uses them (see `Print Assumptions`).
