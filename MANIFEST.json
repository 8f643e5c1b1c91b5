{
 "claims": [
  {
   "property": "C01",
   "status": "proved",
   "theorems": [
    "C01_escape_safe",
    "C01_escape_lossless",
    "C01_escape_injective"
   ],
   "note": ""
  },
  {
   "property": "C02",
   "status": "proved",
   "theorems": [
    "C02_escape_app",
    "C02_escape_pieces",
    "C02_escape_lines"
   ],
   "note": ""
  },
  {
   "property": "C03",
   "status": "proved",
   "theorems": [
    "C03_quoted_value",
    "C03_no_raw_markup",
    "C03_rendered_attribute"
   ],
   "note": ""
  },
  {
   "property": "C04",
   "status": "proved",
   "theorems": [
    "C04_merged",
    "C04_boolean_attributes",
    "C04_attributes_in_order",
    "C04_single_spaces"
   ],
   "note": "merging is proved for repeated string values; other repeated values end in whatever Python's += does"
  },
  {
   "property": "C05",
   "status": "proved",
   "theorems": [
    "C05_custom_read",
    "C05_custom_one",
    "C05_element_shape",
    "C05_element_read",
    "C05_void_element",
    "C05_positional_rejected",
    "C05_custom_name_unescaped_refuted",
    "C05_comment_breakout_refuted"
   ],
   "note": ""
  },
  {
   "property": "C06",
   "status": "proved",
   "theorems": [
    "C06_well_formed"
   ],
   "note": ""
  },
  {
   "property": "C07",
   "status": "proved",
   "theorems": [
    "C07_add_indent_lines",
    "C07_line_count"
   ],
   "note": ""
  },
  {
   "property": "C08",
   "status": "proved",
   "theorems": [
    "C08_nested",
    "C08_nested_blocks"
   ],
   "note": ""
  },
  {
   "property": "C09",
   "status": "proved",
   "theorems": [
    "C09_common",
    "C09_longest",
    "C09_blank_text"
   ],
   "note": ""
  },
  {
   "property": "C10",
   "status": "proved",
   "theorems": [
    "C10_line_wise",
    "C10_nothing_left",
    "C10_reversible"
   ],
   "note": ""
  },
  {
   "property": "C11",
   "status": "partial",
   "theorems": [
    "C11_layout_partial",
    "C11_relative_indentation_partial",
    "C11_single_line",
    "C11_empty",
    "C11_empty_headline_refuted",
    "C11_tab_tail_refuted"
   ],
   "note": "proved for a non-blank headline; two refuted corner cases: empty headline and tab-indented tail"
  },
  {
   "property": "C12",
   "status": "proved",
   "theorems": [
    "C12_symbols_fresh",
    "C12_symbols_bound",
    "C12_symbol_may_be_space_refuted"
   ],
   "note": ""
  },
  {
   "property": "C13",
   "status": "proved",
   "theorems": [
    "C13_balanced"
   ],
   "note": ""
  },
  {
   "property": "C14",
   "status": "proved",
   "theorems": [
    "C14_lossless_general",
    "C14_lossless",
    "C14_injective",
    "C14_other_whitespace_refuted"
   ],
   "note": ""
  },
  {
   "property": "C15",
   "status": "proved",
   "theorems": [
    "C15_indentation_error",
    "C15_accepted",
    "C15_no_assertion"
   ],
   "note": ""
  },
  {
   "property": "C16",
   "status": "proved",
   "theorems": [
    "C16_line_numbers"
   ],
   "note": ""
  },
  {
   "property": "C17",
   "status": "proved",
   "theorems": [
    "C17_scope",
    "C17_pop",
    "C17_reset_restores"
   ],
   "note": ""
  },
  {
   "property": "C18",
   "status": "proved",
   "theorems": [
    "C18_asdict",
    "C18_pushnew",
    "C18_leave_block"
   ],
   "note": ""
  },
  {
   "property": "C19",
   "status": "proved",
   "theorems": [
    "C19_walk",
    "C19_once",
    "C19_other_order"
   ],
   "note": ""
  },
  {
   "property": "C20",
   "status": "partial",
   "theorems": [
    "C20_select_partial",
    "C20_select_tag_partial",
    "C20_attr_search_refuted",
    "C20_attr_search_fails"
   ],
   "note": "holds when no visited node lacks attributes (or no attribute criterion); refuted in general: attribute search raises TypeError on texts"
  },
  {
   "property": "C21",
   "status": "partial",
   "theorems": [
    "C21_skip_partial",
    "C21_attr_skip_refuted"
   ],
   "note": "as C20: refuted for attribute criteria on documents with text nodes, proved otherwise"
  },
  {
   "property": "C22",
   "status": "proved",
   "theorems": [
    "C22_copy",
    "C22_same_text",
    "C22_independent"
   ],
   "note": ""
  },
  {
   "property": "C23",
   "status": "partial",
   "theorems": [
    "C23_preorder_is_bottom_up",
    "C23_postorder_is_top_down",
    "C23_documented_preorder_refuted",
    "C23_documented_postorder_refuted"
   ],
   "note": "documented order refuted; proved that 'preorder' is bottom-up and 'postorder' is top-down"
  },
  {
   "property": "C24",
   "status": "proved",
   "theorems": [
    "C24_flatten",
    "C24_bad_items",
    "C24_total",
    "C24_idempotent"
   ],
   "note": ""
  },
  {
   "property": "C25",
   "status": "partial",
   "theorems": [
    "C25_index_partial",
    "C25_index_error",
    "C25_slice_contents_partial",
    "C25_slice_refuted"
   ],
   "note": "indexing proved, with the exception out of range; C25_slice_contents_partial: the nodes in a slice, which are one level too deep; slicing as documented is refuted"
  },
  {
   "property": "C26",
   "status": "proved",
   "theorems": [
    "C26_sum_of_indents",
    "C26_enclose",
    "C26_document"
   ],
   "note": ""
  },
  {
   "property": "C27",
   "status": "partial",
   "theorems": [
    "C27_shared_refuted",
    "C27_discarded_refuted",
    "C27_embed_partial"
   ],
   "note": "refuted: a DOM embedded twice shares its nodes, so both occurrences are indented like the last one; witnesses included. C27_embed_partial: which nodes an @ line inserts, for every value except Python objects of other kinds."
  },
  {
   "property": "C28",
   "status": "proved",
   "theorems": [
    "C28_body",
    "C28_block",
    "C28_expansion",
    "C28_expression"
   ],
   "note": ""
  },
  {
   "property": "C29",
   "status": "partial",
   "theorems": [
    "C29_first_success",
    "C29_never_raises_partial",
    "C29_never_raises_refuted"
   ],
   "note": "first succeeding alternative proved for every block; 'never raises' proved when nodes are placed once (no sharing), refuted when an imported hypertag's body is shared between states"
  },
  {
   "property": "C30",
   "status": "proved",
   "theorems": [
    "C30_first_true"
   ],
   "note": ""
  },
  {
   "property": "C31",
   "status": "partial",
   "theorems": [
    "C31_each_item_partial",
    "C31_else_refuted",
    "C31_else_variable_refuted"
   ],
   "note": "one rendering per item, in order, proved; the else clause is refuted: loop variables are not bound in else, and an else body replaces a missing body"
  },
  {
   "property": "C32",
   "status": "proved",
   "theorems": [
    "C32_iterations",
    "C32_bound_irrelevant"
   ],
   "note": ""
  },
  {
   "property": "C33",
   "status": "partial",
   "theorems": [
    "C33_runtime_partial",
    "C33_block_partial",
    "C33_document_partial",
    "C33_refuted"
   ],
   "note": "proved for every tagged block outside of hypertag definitions, and inside of them for variables not written by a definition; refuted inside a definition that expands itself again; C33_runtime_partial discharges the condition on imports for the module loader of runtime.py"
  },
  {
   "property": "C34",
   "status": "partial",
   "theorems": [
    "C34_refuted",
    "C34_block_partial",
    "C34_document_partial"
   ],
   "note": "proved for new variables and variables of the same block, in particular at the top level; refuted for variables inherited from outside of a tagged block"
  },
  {
   "property": "C35",
   "status": "partial",
   "theorems": [
    "C35_undefined_partial",
    "C35_nothing_done_partial",
    "C35_defined_partial",
    "C35_refuted"
   ],
   "note": "both directions proved for every script without a for loop having a body and an else clause; refuted for such a clause, which is never analysed"
  },
  {
   "property": "C36",
   "status": "proved",
   "theorems": [
    "C36_distinct",
    "C36_symbols",
    "C36_definition",
    "C36_assignment",
    "C36_tags_kept"
   ],
   "note": ""
  },
  {
   "property": "C37",
   "status": "proved",
   "theorems": [
    "C37_binding"
   ],
   "note": "formal names different, as checked by the parser; default values may fail on their own"
  },
  {
   "property": "C38",
   "status": "partial",
   "theorems": [
    "C38_refuted",
    "C38_outside_partial"
   ],
   "note": "refuted: local variables survive from one expansion to the next; proved that an expansion changes no variable other than those of definitions"
  },
  {
   "property": "C39",
   "status": "partial",
   "theorems": [
    "C39_root",
    "C39_factor",
    "C39_optional_partial",
    "C39_required_partial",
    "C39_optional_refuted",
    "C39_required_refuted"
   ],
   "note": "proved when truth tests do not fail; refuted: \"?\" lets through an exception of the truth test, \"!\" lets through exceptions of the expression itself"
  },
  {
   "property": "C40",
   "status": "partial",
   "theorems": [
    "C40_and",
    "C40_or",
    "C40_ifelse",
    "C40_not_partial",
    "C40_not_not_refuted"
   ],
   "note": "and, or, if-else and an odd number of nots proved; refuted: not not x returns x"
  },
  {
   "property": "C41",
   "status": "partial",
   "theorems": [
    "C41_chain_partial",
    "C41_bitwise",
    "C41_minus",
    "C41_power_refuted",
    "C41_comparison_refuted"
   ],
   "note": "proved for every chain except two or more powers or comparisons, which are refuted (left-associative, no conjunction)"
  },
  {
   "property": "C42",
   "status": "proved",
   "theorems": [
    "C42_pipeline"
   ],
   "note": ""
  },
  {
   "property": "C43",
   "status": "partial",
   "theorems": [
    "C43_unpacking",
    "C43_trailing_comma_refuted"
   ],
   "note": "success iff the shapes match, proved for every nesting of targets; refuted: a trailing comma after a single target is ignored by the parser, so nothing is unpacked"
  },
  {
   "property": "C44",
   "status": "proved",
   "theorems": [
    "C44_order",
    "C44_nested_nodes"
   ],
   "note": ""
  },
  {
   "property": "C45",
   "status": "proved",
   "theorems": [
    "C45_join_path",
    "C45_every_relative_path",
    "C45_absolute",
    "C45_no_package",
    "C45_empty_package_refuted",
    "C45_dots_only_refuted"
   ],
   "note": ""
  },
  {
   "property": "C46",
   "status": "partial",
   "theorems": [
    "C46_resolved",
    "C46_package_script",
    "C46_current_folder",
    "C46_near",
    "C46_package_name_refuted",
    "C46_builtins_once",
    "C46_builtins",
    "C46_empty_path",
    "C46_resolved_once",
    "C46_again_refuted",
    "C46_first_loader",
    "C46_missing",
    "C46_python_once",
    "C46_script_once_partial",
    "C46_reloaded_refuted",
    "C46_circular_refuted",
    "C46_folder_refuted",
    "C46_builtins_refuted"
   ],
   "note": "first loader wins, error if none, Python modules and scripts of the current folder loaded once: proved for every history of calls; built-in symbols imported once, and which they are: C46_builtins_once, C46_builtins; scripts found by the function of the loader loaded once: C46_resolved_once; refuted for relative imports and for scripts found in a Python package or beside the importing script (translated again each time), circular imports (no end), subfolders that are not packages, and failed import of built-ins. Where a script is looked for: C46_resolved, C46_package_script, C46_current_folder, C46_near (the function of the loader, the package, the current folder, the folder of the referrer); refuted: the package of a script found in a Python package is a path of the file system, so its relative imports of Python modules fail"
  },
  {
   "property": "C47",
   "status": "partial",
   "theorems": [
    "C47_exported_partial",
    "C47_wildcard",
    "C47_refuted",
    "C47_python_symbols",
    "C47_python_names"
   ],
   "note": "exported symbols and wildcard imports characterised for every script; refuted for a variable named like a built-in symbol, which is not exported; C47_python_symbols, C47_python_names: the symbols of a Python module, and which modules are accepted."
  },
  {
   "property": "C48",
   "status": "partial",
   "theorems": [
    "C48_undeclared",
    "C48_missing",
    "C48_declared",
    "C48_values",
    "C48_context",
    "C48_render_partial",
    "C48_names",
    "C48_names_refuted"
   ],
   "note": "undeclared symbols have no influence, a missing symbol prevents translation, declared symbols act like globals; values of the context given by make_context. Refuted for values named like parameters of the functions that pass them on (self, builtins, __builtins__, __script__): TypeError"
  },
  {
   "property": "C49",
   "status": "proved",
   "theorems": [
    "C49_parsing_ends",
    "C49_rules_total",
    "C49_accepts"
   ],
   "note": "parsing with the grammar of grammar.py ends within fuel linear in the text for every preprocessed text, every rule included, and a script is accepted iff the document rule consumes it all"
  },
  {
   "property": "C50",
   "status": "proved",
   "theorems": [
    "C50_leaves",
    "C50_nodes"
   ],
   "note": "leaves of the tree spell the text in order; every node is the slice of the text it claims"
  },
  {
   "property": "C51",
   "status": "proved",
   "theorems": [
    "C51_verbatim",
    "C51_plain",
    "C51_line"
   ],
   "note": "C51_verbatim and C51_plain: the text has no newline and no whitespace at the end, and one space separates it from the mark; C51_line gives the exact outcome for every text (trailing whitespace and one leading whitespace character are dropped). In plain texts the characters $ { } are written twice. The theorems go through the whole model: parser, analysis, translation, rendering."
  },
  {
   "property": "C52",
   "status": "partial",
   "theorems": [
    "C52_pages_partial",
    "C52_refuted",
    "C52_templates_partial",
    "C52_raises_partial"
   ],
   "note": "C52_pages_partial, C52_templates_partial, C52_raises_partial: comments in lines of their own (in templates with either mark and any number of lines), at any place and depth of a page (documents of C56) or of a script with conditions, loops, definitions of hypertags (inside and between them) and their uses (C58, C60), leave the output unchanged, and scripts that raise still raise; comments in front of the context line or at the end of a line with contents are not covered. C52_refuted: in general false, a comment line between the branches of a conditional block is a syntax error."
  },
  {
   "property": "C53",
   "status": "partial",
   "theorems": [
    "C53_boundary",
    "C53_text",
    "C53_first_partial",
    "C53_first_refuted",
    "C53_truncation_refuted",
    "C53_other_errors",
    "C53_reported_refuted"
   ],
   "note": "the reported line is a boundary (script cut before it parses, cut after it does not) for every invalid script; it is the first such line when every earlier prefix is parsable; refuted in general: prefixes are not monotone, and errors other than syntax errors raised by a prefix hide the location. C53_text: what the message quotes of the line."
  },
  {
   "property": "C54",
   "status": "proved",
   "theorems": [
    "C54_crop",
    "C54_crop_words",
    "C54_merge",
    "C54_inline",
    "C54_unique",
    "C54_dedent",
    "C54_dedent_blank_lines_refuted",
    "C54_dedent_common"
   ],
   "note": ""
  },
  {
   "property": "C55",
   "status": "proved",
   "theorems": [
    "C55_cycle",
    "C55_cycle_empty_refuted",
    "C55_cycle_empty",
    "C55_changes"
   ],
   "note": ""
  },
  {
   "property": "C56",
   "status": "proved",
   "theorems": [
    "C56_page",
    "C56_render",
    "C56_html_tags",
    "C56_void",
    "C56_capitals"
   ],
   "note": "Documents: PageSpec.v. C56_page states parsing, translation and rendering one after another, C56_render is Runtime.render. Tag names that begin with 'try' are excluded (a finding), and attribute values with a newline, double quote or backslash. C56_void and C56_capitals: which tags of std/html.py have no closing tag."
  },
  {
   "property": "C57",
   "status": "proved",
   "theorems": [
    "C57_line",
    "C57_expression",
    "C57_unambiguous",
    "C57_excluded_names",
    "C57_excluded_is",
    "C57_excluded_concat",
    "C57_excluded_tight",
    "C57_excluded_minus",
    "C57_excluded_brace",
    "C57_qualifier_twice"
   ],
   "note": "Expressions, their texts and trees: OperSpec.v. C57_line: a line of text with any number of expressions in braces. The conditions on names, on operands of concatenation and of 'is' are shown to be needed by the C57_excluded theorems (findings). A qualifier after parentheses is applied twice, and two braces in a row are text (findings). Strings in both kinds of quotes, with escapes and embedded expressions, and raw strings are covered (escapes in general: C62). Not covered: floats, texts without blanks around operators."
  },
  {
   "property": "C58",
   "status": "proved",
   "theorems": [
    "C58_template",
    "C58_render",
    "C58_excluded_marker",
    "C58_excluded_gap",
    "C58_excluded_outer",
    "C58_excluded_loop",
    "C58_excluded_kept",
    "C58_excluded_names",
    "C58_excluded_arguments",
    "C58_excluded_condition"
   ],
   "note": "Templates, their scripts, values and HTML: TmplSpec.v; the record py holds the answers of Python: a value, an exception, or left open, and `agrees` ties them to the primitives. Claims are about instances that exist; exceptions: C61. Conditions, each shown to be needed by a C58_excluded theorem or an earlier finding: no blank line at the beginning of the body of a control block; inside a tag, variables of an outer level are not assigned; inside an alternative of try no variable known before is assigned; conditions and sequences that are not factors are in parentheses; names of tags do not begin with try, else, elif. Attribute values are factors written bare or any expressions in braces. plain_symbols says that the first four characters from 10088 on that the script does not use are neither digits nor name characters for the lexicon: the preprocessor puts them in as indentation marks (symbols_plain: true if the script does not use the dingbats 10088-10091). Texts may have several lines, with any indentation and blank lines between; values may contain line breaks. Definitions of hypertags: C60. A loop with a condition may have any number of rounds up to a bound lim given to the meaning; the fuel must be at least lim (lim is any number, so every loop that ends is covered). In-place assignments (x += e) are covered for variables introduced at the same level. Imports: C64. Not covered: else of a for loop (C31_else_variable_refuted)."
  },
  {
   "property": "C59",
   "status": "proved",
   "theorems": [
    "C59_read",
    "C59_excluded_markup"
   ],
   "note": "Reader of HTML: HtmlSpec.v (the one of C06); what it should see: TmplReadSpec.v. The conditions on templates are those of C58 and C60; C59_excluded_markup shows that texts must be plain."
  },
  {
   "property": "C60",
   "status": "proved",
   "theorems": [
    "C60_script",
    "C60_render",
    "C60_excluded_chain",
    "C60_excluded_twice",
    "C60_excluded_gap"
   ],
   "note": "Definitions, uses and their meaning: TmplSpec.v (mean, meanings). Definitions stand in front of the template; the meaning of a use depends on its arguments, its body and the variables known at the definition only, so with these conditions nothing leaks from one expansion to the next (compare C38). Conditions, shown to be needed by C60_excluded theorems or earlier findings: no hypertag in a chain, the body is used once, no blank line at the beginning of a definition. Limits of the theorem only: names of parameters differ from those of variables known at the definition; the fuel is at least the number of definitions plus the bound on rounds of while loops. Not covered: recursive hypertags, definitions inside of blocks, shortcuts on hypertags."
  },
  {
   "property": "C61",
   "status": "proved",
   "theorems": [
    "C61_script",
    "C61_render"
   ],
   "note": "Meaning of templates as for C58 and C60, with three answers: a value, an exception, or left open (objects whose truth value is not known, an attribute given twice with values other than texts, attributes whose value has no text). The theorem says that an exception is raised, not which one. An exception in an alternative of try is caught there: the meaning is that of the next alternative."
  },
  {
   "property": "C62",
   "status": "proved",
   "theorems": [
    "C62_decode",
    "C62_rejected",
    "C62_unique",
    "C62_written",
    "C62_literal",
    "C62_excluded_quote",
    "C62_excluded_name",
    "C62_digits"
   ],
   "note": "Escape sequences: EscSpec.v, a table and a relation written after the Python reference. decode_escapes is exactly this relation, and its only exception is ValueError. C62_literal: every string written with escapes is parsed to a formatted string of that text. Findings: the quote of a string cannot be escaped by a backslash, although the documentation says that Python's escape sequences are recognised; the name of \\N{...} is read as an embedded expression; \\x, \\u, \\U with too few characters after them are kept as they are, where Python reports an error; with wrong digits they raise ValueError, not SyntaxError."
  },
  {
   "property": "C63",
   "status": "partial",
   "theorems": [
    "C63_location_partial",
    "C63_nodes_partial",
    "C63_balanced",
    "C63_excerpt",
    "C63_begin_refuted",
    "C63_raw_string_refuted"
   ],
   "note": "Model: Errors.v. C63_location_partial is about any stretch of the translated text with paired marks, C63_nodes_partial about all nodes of every syntax tree (BalanceFacts.v: the grammar pairs the marks). Missing: raw strings and import paths that run over lines of different indentation; there the claim is false (C63_raw_string_refuted), the marks inside are counted on one side only. The place reported is the end of the construct, not its beginning (C63_begin_refuted). The condition on the lexicon says that the four marks are no digits, which is so in Unicode; scripts that contain the usual marks, for which others are chosen, are covered by C63_location_partial only. Not modelled: the wording of the message, and which node is passed with which exception."
  },
  {
   "property": "C64",
   "status": "proved",
   "theorems": [
    "C64_render",
    "C64_raises"
   ],
   "note": "Scripts, libraries and their meaning: BookSpec.v. Limits: all scripts lie in one folder and are imported by a relative path of one name; only hypertags are imported, each name once and not under another name; import lines stand first, then definitions, then the template. Nothing is claimed for names or files that do not exist and for circular imports (which do not end, C46_circular_refuted). The fuel is at least the number of definitions plus the bound on rounds of while loops plus depth times the most definitions of one script."
  },
  {
   "property": "C65",
   "status": "partial",
   "theorems": [
    "C65_found",
    "C65_missing",
    "C65_render_partial",
    "C65_no_context",
    "C65_string_partial",
    "C65_html_partial",
    "C65_shared_context_refuted",
    "C65_names_refuted"
   ],
   "note": "lookup of files proved; rendering proved for contexts whose names are no parameters of the functions involved and do not contain __file__, __package__ or __tags__; templates from strings: C65_string_partial; refuted: the dictionary of the caller is changed, so that the next template rendered with it looks for imports in the folder of the first; contexts with a name like self or builtins raise TypeError. Django itself (BaseEngine, lazy csrf values, opening of files) is a parameter."
  },
  {
   "property": "C66",
   "status": "partial",
   "theorems": [
    "C66_append",
    "C66_inline",
    "C66_contents",
    "C66_dedent",
    "C66_dedent_nodes",
    "C66_control_refuted",
    "C66_inside_control_refuted"
   ],
   "note": "proved for pages (PageSpec.v): at top level C66_append, inside an element C66_inline, C66_contents, C66_dedent, at any depth by C56 of whose specification the modifiers are part; C66_dedent_nodes: every node of any block with '<', control blocks included, has an empty indentation; refuted for control blocks: '...' in front of one has no effect, nor has '<' inside of one."
  },
  {
   "property": "C67",
   "status": "proved",
   "theorems": [
    "C67_definitions",
    "C67_imports"
   ],
   "note": "More definitions, import lines, names: MoreSpec.v. Limits of C60 and C64 for both scripts; the further definitions have no blank lines in front, which would appear in the output; templates whose meaning is left open are excluded."
  },
  {
   "property": "C68",
   "status": "proved",
   "theorems": [
    "C68_definitions",
    "C68_imports"
   ],
   "note": "Limits of C60 and C64 for both scripts; templates whose meaning is left open are excluded."
  },
  {
   "property": "C69",
   "status": "proved",
   "theorems": [
    "C69_moved"
   ],
   "note": "Limits of C64 for both scripts; the definitions have no blank lines in front (they would appear in the output of the script they stand in); all of them are imported; templates whose meaning is left open are excluded. C69_assigned shows that the condition on variables is needed."
  },
  {
   "property": "C70",
   "status": "partial",
   "theorems": [
    "C70_renamed_partial",
    "C70_length_refuted"
   ],
   "note": "C70_renamed_partial: limits of C60 for both scripts; hypertags used with a text in the same line that has several lines or expressions keep the length of their names. C70_length_refuted: otherwise false, the column of the marker, hence the length of the name, decides how many blanks are removed in front of further lines of a value. Templates whose meaning is left open are excluded."
  },
  {
   "property": "C71",
   "status": "proved",
   "theorems": [
    "C71_inlined",
    "C71_excluded_clash",
    "C71_excluded_blank",
    "C71_blocks",
    "C71_excluded_hidden"
   ],
   "note": "Limits of C60 for both scripts. Arguments in order, by name, and default values; uses with shortcuts, or with arguments that do not fit, stay. C71_excluded_clash, C71_excluded_blank show that the conditions on names and on contents are needed: names would be overwritten; a hypertag that gives no line stands for a blank line, its contents do not. C71_blocks: uses with a body; only for scripts that render, since the body is evaluated even if it is not shown (C71_excluded_hidden); uses inside of try, inside of bodies of uses of the same hypertag, and with bodies that assign variables used elsewhere stay. Templates whose meaning is left open are excluded."
  },
  {
   "property": "C72",
   "status": "partial",
   "theorems": [
    "C72_renamed_partial",
    "C72_length_refuted"
   ],
   "note": "C72_renamed_partial: limits of C60 for both scripts; where a text of several lines or with expressions follows tags or arguments in the same line, the length of the line up to the marker must stay. C72_length_refuted: otherwise false, the length of the name of a variable in an attribute decides how many blanks are removed in front of further lines of a value. Templates whose meaning is left open are excluded."
  },
  {
   "property": "C73",
   "status": "partial",
   "theorems": [
    "C73_exact",
    "C73_escaped",
    "C73_rendered",
    "C73_attributes",
    "C73_nested",
    "C73_nested_refuted",
    "C73_markup",
    "C73_excluded_hyphens"
   ],
   "note": "proved for every body, as an equivalence with a small reader of HTML comments (NoteSpec.v, after the HTML standard); refuted: a comment inside of a comment always closes it. Data are compared as they are, without the normalisation of newlines and null characters that browsers do."
  }
 ]
}