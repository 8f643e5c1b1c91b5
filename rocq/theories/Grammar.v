(** The grammar of Hypertag: src/hypertag/core/grammar.py 11-304, rule by rule, as built by
    Grammar.__init__ (core/ast.py 159-176) from the text of the grammar: percent signs and placeholders
    are already replaced, string literals of the regexes evaluated. The comment at each rule gives its
    line in grammar.py. *)
From Coq Require Import List NArith Bool Arith Ascii String.
From Verif Require Import PyStr Preprocess Peg.
Import ListNotations.
Local Open Scope string_scope.
Local Open Scope list_scope.
Local Open Scope N_scope.

(** Properties of characters outside ASCII, which depend on the version of the Unicode tables of the
    Python interpreter: the value of a decimal digit (\d, int()) and str.isalnum() (\w). *)
Record unicode := { u_digit : char -> option N; u_alnum : char -> bool }.

(** Character classes. *)
Definition cls_in (l : str) (c : char) : bool := mem c l.
Definition cls_not (l : str) (c : char) : bool := negb (mem c l).
Definition between (a b c : char) : bool := (a <=? c) && (c <=? b).
Definition cls_digit (U : unicode) (c : char) : bool :=
  between 48 57 c || ((128 <=? c) && match u_digit U c with Some _ => true | None => false end).
Definition cls_word (U : unicode) (c : char) : bool :=
  between 48 57 c || between 65 90 c || between 97 122 c || (c =? 95) || ((128 <=? c) && u_alnum U c).

(** [a-z] with the flag re.I: ASCII letters of both cases and the four characters U+0130, U+0131,
    U+017F, U+212A that fold to ASCII letters. *)
Definition cls_az (c : char) : bool :=
  between 97 122 c || between 65 90 c || (c =? 304) || (c =? 305) || (c =? 383) || (c =? 8490).

(** core/xml_chars.py 15. With the flag re.I two characters are added that fold to characters of the
    class: U+00B5 and U+0345. *)
Definition cls_xml_start (c : char) : bool :=
  (c =? 95) || between 65 90 c || between 97 122 c || between 192 214 c || between 216 246 c
  || between 248 767 c || between 880 893 c || between 895 8191 c || between 8204 8205 c
  || between 8304 8591 c || between 11264 12271 c || between 12289 55295 c || between 63744 64975 c
  || between 65008 65533 c || between 65536 983039 c || (c =? 181) || (c =? 837).

(** core/xml_chars.py 21 *)
Definition cls_xml_end (c : char) : bool :=
  cls_xml_start c || between 48 57 c || (c =? 46) || (c =? 45) || (c =? 183) || between 768 879 c
  || between 8255 8256 c.

(** core/xml_chars.py 18 *)
Definition cls_xml (c : char) : bool := cls_xml_end c || (c =? 58).

(** Building blocks of regexes. *)
Fixpoint rx_lit (l : str) : rx :=
  match l with
  | [] => RxEps
  | c :: r => RxSeq (RxChr (N.eqb c)) (rx_lit r)
  end.
Definition rx_plus (p : char -> bool) : rx := RxSeq (RxChr p) (RxStar p).
Definition rx_opt (x : rx) : rx := RxAlt x RxEps.
Fixpoint rx_alts (x : rx) (l : list rx) : rx :=
  match l with
  | [] => x
  | y :: r => RxAlt x (rx_alts y r)
  end.

(** grammar.py 38 *)
Definition rx_op_inplace : rx :=
  rx_alts (rx_lit (u "//")) [rx_lit (u "%"); rx_lit (u "<<"); rx_lit (u ">>"); RxChr (cls_in (u "-+*/&|^"))].
(** grammar.py 64 *)
Definition rx_path : rx := rx_plus (fun c => negb (is_space c) && cls_not [34; 39] c).
(** grammar.py 133 *)
Definition rx_mark_comment : rx := RxAlt (rx_lit (u "--")) (rx_lit (u "#")).
(** grammar.py 135 *)
Definition cls_blank : char -> bool := cls_in [SP; TAB].
Definition rx_gap : rx := RxChr cls_blank.
(** grammar.py 152 *)
Definition rx_short_lit : rx := rx_plus (fun c => cls_az c || between 48 57 c || cls_in (u "_-") c).
(** grammar.py 234 *)
Definition rx_qualifier : rx := RxChr (cls_in (u "?!")).
(** grammar.py 249 *)
Definition rx_op_comp : rx :=
  rx_alts (rx_lit (u "==")) [rx_lit (u "!="); rx_lit (u "<>"); rx_lit (u ">="); rx_lit (u "<=");
    rx_lit (u "<"); rx_lit (u ">");
    RxSeq (rx_lit (u "not")) (RxSeq (rx_plus is_space) (rx_lit (u "in")));
    RxSeq (rx_lit (u "is")) (RxSeq (rx_plus is_space) (rx_lit (u "not")));
    rx_lit (u "in"); rx_lit (u "is")].
(** grammar.py 254 *)
Definition cls_id_start (c : char) : bool := cls_az c || (c =? 95).
Definition cls_id (c : char) : bool := cls_az c || between 48 57 c || (c =? 95).
Definition rx_name_id : rx := RxSeq (RxChr cls_id_start) (RxStar cls_id).
(** grammar.py 255 *)
Definition reserved : list str :=
  [u "from"; u "import"; u "if"; u "else"; u "elif"; u "try"; u "for"; u "while"; u "break";
   u "continue"; u "pass"; u "is"; u "in"; u "not"; u "and"; u "or"].
Definition rx_reserved (U : unicode) : rx :=
  RxSeq (rx_alts (rx_lit (hd [] reserved)) (map rx_lit (tl reserved))) (RxEdge (cls_word U)).
(** grammar.py 259 *)
Definition rx_name_xml : rx :=
  RxSeq (RxChr cls_xml_start) (rx_opt (RxSeq (RxStar cls_xml) (RxChr cls_xml_end))).
(** grammar.py 266 *)
Definition rx_sign : rx := rx_opt (RxChr (cls_in (u "+-"))).
(** grammar.py 267 *)
Definition rx_number (U : unicode) : rx :=
  let d := cls_digit U in
  RxSeq (RxAlt (RxSeq (rx_lit (u ".")) (rx_plus d))
               (RxSeq (rx_plus d) (rx_opt (RxSeq (rx_lit (u ".")) (RxStar d)))))
        (rx_opt (RxSeq (RxChr (cls_in (u "eE"))) (RxSeq rx_sign (rx_plus d)))).
(** grammar.py 273 *)
Definition rx_raw1 : rx := RxSeq (rx_lit (u "r'")) (RxSeq (RxStar (cls_not [39])) (rx_lit [39])).
Definition rx_raw2 : rx := RxSeq (rx_lit (u "r""")) (RxSeq (RxStar (cls_not [34])) (rx_lit [34])).
(** grammar.py 282 *)
Definition rx_escape : rx := rx_alts (rx_lit (u "$$")) [rx_lit (u "{{"); rx_lit (u "}}")].
(** grammar.py 284-287 *)
Definition rx_verbatim (y : symbols) : rx := rx_plus (cls_not (symbol_list y ++ [NL])).
Definition rx_text (y : symbols) : rx := rx_plus (cls_not (symbol_list y ++ [NL] ++ u "${}")).
Definition rx_quot1 (y : symbols) : rx := rx_plus (cls_not (symbol_list y ++ [NL] ++ u "${}'")).
Definition rx_quot2 (y : symbols) : rx := rx_plus (cls_not (symbol_list y ++ [NL] ++ u "${}""")).
(** grammar.py 296, 299, 300 *)
Definition rx_nl : rx := rx_plus (N.eqb NL).
Definition rx_space : rx := rx_plus cls_blank.
Definition rx_ws : rx := RxStar cls_blank.

(** Names of the rules. *)
Inductive rule :=
| R_document | R_tail_blocks | R_core_blocks | R_block | R_modifier | R_dedent | R_append 
| R_block_control | R_block_try | R_try_long | R_try_short | R_block_expr | R_block_assign 
| R_expr_assign | R_op_inplace | R_block_while | R_block_for | R_block_if | R_clause_if 
| R_clause_else | R_targets | R_target | R_var_def | R_tail_for | R_tail_if | R_block_def 
| R_attrs_def | R_attr_body | R_attr_def | R_block_context | R_block_import | R_path_import 
| R_item_import | R_wild_import | R_cntx_import | R_name_import | R_rename | R_block_struct 
| R_tags_expand | R_tag_expand | R_special_tag | R_null | R_pass | R_generic_control 
| R_generic_struct | R_body_control | R_body_struct | R_body_text | R_headline | R_head_verbat 
| R_head_normal | R_head_markup | R_block_embed | R_block_comment | R_inline_comment 
| R_block_verbat | R_block_normal | R_block_markup | R_tail_verbat | R_tail_normal | R_tail_markup 
| R_core_verbat | R_core_normal | R_core_markup | R_line_verbat | R_line_normal | R_line_markup 
| R_mark_struct | R_mark_verbat | R_mark_normal | R_mark_markup | R_mark_def | R_mark_eval 
| R_mark_embed | R_mark_comment | R_gap | R_embedding | R_embedding_braces | R_embedding_eval 
| R_attrs_val | R_attr_val | R_attr_short | R_attr_short_lit | R_attr_named | R_attr_unnamed 
| R_value_of_attr | R_args | R_arg | R_kwarg | R_expr | R_expr_var | R_expr_factor | R_expr_strict 
| R_expr_augment | R_expr_tuple | R_expr_bitwise | R_subexpr | R_tag_use | R_var_use | R_tuple 
| R_list | R_set | R_dict | R_dict_pair | R_atom | R_factor_var | R_factor_strict | R_factor_filt 
| R_factor | R_pow_expr | R_term | R_arith_expr | R_shift_expr | R_and_expr | R_xor_expr 
| R_or_expr | R_pipeline | R_concat_expr | R_comparison | R_not_test | R_and_test | R_or_test 
| R_ifelse_test | R_expr_root | R_slice_value | R_slice | R_subscript | R_call | R_index | R_member 
| R_trailer | R_trailer_filt | R_partial_call | R_filter | R_qualifier | R_op_power | R_neg 
| R_op_multiplic | R_op_additive | R_op_shift | R_op_empty | R_not | R_op_comp | R_symbol 
| R_name_id | R_name_reserved | R_name_xml | R_literal | R_number_signed | R_number | R_boolean 
| R_none | R_string | R_string_raw | R_string_format | R_string_quot1 | R_string_quot2 | R_escape 
| R_verbatim | R_text | R_text_quot1 | R_text_quot2 | R_indent_s | R_dedent_s | R_indent_t 
| R_dedent_t | R_margin_out | R_margin | R_nl | R_comma | R_space | R_ws.

(** The rules: grammar.py 17-300. *)
Definition grammar (U : unicode) (y : symbols) (r : rule) : peg rule :=
  match r with
  | R_document => (* 17 *)
      PSeq [POpt (PRef R_core_blocks); POpt (PRef R_margin)]
  | R_tail_blocks => (* 19 *)
      PAlt [PSeq [PRef R_indent_s; PRef R_core_blocks; PRef R_dedent_s]; PSeq [PRef R_indent_t;
        PRef R_core_blocks; PRef R_dedent_t]]
  | R_core_blocks => (* 20 *)
      PAlt [PRef R_tail_blocks; PPlus (PRef R_block)]
  | R_block => (* 22 *)
      PSeq [PRef R_margin_out; POpt (PSeq [PRef R_modifier; PRef R_ws]); PAlt [PRef R_block_control;
        PRef R_block_def; PRef R_block_context; PRef R_block_import; PRef R_block_struct;
        PRef R_block_comment; PRef R_special_tag]]
  | R_modifier => (* 23 *)
      PAlt [PRef R_dedent; PRef R_append]
  | R_dedent => (* 24 *)
      PLit (u "<")
  | R_append => (* 25 *)
      PLit (u "...")
  | R_block_control => (* 29 *)
      PAlt [PRef R_block_assign; PRef R_block_expr; PRef R_block_if; PRef R_block_try; PRef R_block_for;
        PRef R_block_while]
  | R_block_try => (* 31 *)
      PAlt [PRef R_try_long; PRef R_try_short]
  | R_try_long => (* 32 *)
      PSeq [PLit (u "try"); POpt (PRef R_generic_control); PStar (PRef R_clause_else)]
  | R_try_short => (* 33 *)
      PSeq [PLit (u "?"); PRef R_ws; POpt (PAlt [PRef R_block_struct; PRef R_body_control])]
  | R_block_expr => (* 35 *)
      PSeq [PRef R_mark_eval; PRef R_expr_assign]
  | R_block_assign => (* 36 *)
      PSeq [PRef R_mark_eval; PRef R_ws; PRef R_targets; PRef R_ws; POpt (PRef R_op_inplace);
        PLit (u "="); PRef R_expr_assign]
  | R_expr_assign => (* 37 *)
      PSeq [PRef R_ws; PAlt [PRef R_expr_augment; PRef R_embedding]; POpt (PRef R_inline_comment)]
  | R_op_inplace => (* 38 *)
      PRx rx_op_inplace
  | R_block_while => (* 40 *)
      PSeq [PLit (u "while"); PRef R_clause_if; POpt (PRef R_clause_else)]
  | R_block_for => (* 41 *)
      PSeq [PLit (u "for"); PRef R_space; PRef R_targets; PRef R_space; PLit (u "in"); PRef R_space;
        PRef R_tail_for; POpt (PRef R_clause_else)]
  | R_block_if => (* 42 *)
      PSeq [PLit (u "if"); PRef R_clause_if; PStar (PSeq [PRef R_nl; PLit (u "elif"); PRef R_clause_if]);
        POpt (PRef R_clause_else)]
  | R_clause_if => (* 44 *)
      PSeq [PRef R_space; PRef R_tail_if]
  | R_clause_else => (* 45 *)
      PSeq [PRef R_nl; PLit (u "else"); POpt (PRef R_generic_control)]
  | R_targets => (* 47 *)
      PSeq [PRef R_target; PStar (PSeq [PRef R_comma; PRef R_target]); POpt (PSeq [PRef R_ws;
        PLit (u ",")])]
  | R_target => (* 48 *)
      PAlt [PSeq [PLit (u "("); PRef R_ws; PRef R_targets; PRef R_ws; PLit (u ")")]; PRef R_var_def]
  | R_var_def => (* 49 *)
      PSeq [PRef R_name_id; PLit []]
  | R_tail_for => (* 51 *)
      PAlt [PSeq [PRef R_expr_factor; PRef R_generic_control]; PSeq [PRef R_expr_augment;
        POpt (PRef R_body_control)]]
  | R_tail_if => (* 52 *)
      PAlt [PSeq [PRef R_expr_factor; PRef R_generic_control]; PSeq [PRef R_expr;
        POpt (PRef R_body_control)]]
  | R_block_def => (* 56 *)
      PSeq [PRef R_mark_def; PRef R_ws; PRef R_name_id; PRef R_attrs_def; PRef R_generic_struct]
  | R_attrs_def => (* 57 *)
      PSeq [POpt (PSeq [PRef R_space; PRef R_attr_body]); PStar (PSeq [PRef R_space; PRef R_attr_def])]
  | R_attr_body => (* 59 *)
      PSeq [PRef R_mark_embed; PRef R_ws; PRef R_name_id]
  | R_attr_def => (* 60 *)
      PSeq [PRef R_name_id; POpt (PSeq [PRef R_ws; PLit (u "="); PRef R_ws; PRef R_value_of_attr])]
  | R_block_context => (* 62 *)
      PSeq [PLit (u "context"); PRef R_space; PRef R_cntx_import; PStar (PSeq [PRef R_comma;
        PRef R_cntx_import]); POpt (PRef R_inline_comment)]
  | R_block_import => (* 63 *)
      PSeq [PLit (u "from"); PRef R_space; PRef R_path_import; PRef R_space; PLit (u "import");
        PRef R_space; PRef R_item_import; PStar (PSeq [PRef R_comma; PRef R_item_import]);
        POpt (PRef R_inline_comment)]
  | R_path_import => (* 64 *)
      PRx rx_path
  | R_item_import => (* 65 *)
      PAlt [PRef R_wild_import; PRef R_name_import]
  | R_wild_import => (* 66 *)
      PLit (u "*")
  | R_cntx_import => (* 67 *)
      PSeq [PRef R_symbol; POpt (PRef R_rename)]
  | R_name_import => (* 68 *)
      PSeq [PRef R_symbol; POpt (PRef R_rename)]
  | R_rename => (* 69 *)
      PSeq [PRef R_space; PLit (u "as"); PRef R_space; PRef R_name_id]
  | R_block_struct => (* 74 *)
      PAlt [PSeq [PRef R_tags_expand; PRef R_generic_struct]; PRef R_body_text]
  | R_tags_expand => (* 76 *)
      PAlt [PRef R_null; PSeq [PRef R_tag_expand; PStar (PSeq [PRef R_ws; PRef R_mark_struct; PRef R_ws;
        PRef R_tag_expand])]]
  | R_tag_expand => (* 77 *)
      PSeq [PRef R_name_id; PRef R_attrs_val]
  | R_special_tag => (* 79 *)
      PSeq [PRef R_pass; PLit []]
  | R_null => (* 81 *)
      PLit (u ".")
  | R_pass => (* 82 *)
      PLit (u "pass")
  | R_generic_control => (* 90 *)
      PAlt [PSeq [PRef R_ws; PRef R_body_text]; PRef R_body_control]
  | R_generic_struct => (* 91 *)
      PAlt [PSeq [PRef R_ws; PRef R_body_text]; PRef R_body_struct]
  | R_body_control => (* 93 *)
      PAlt [PSeq [PRef R_ws; PRef R_mark_struct; POpt (PRef R_inline_comment);
        POpt (PRef R_tail_blocks)]; PSeq [POpt (PRef R_inline_comment); PRef R_tail_blocks]]
  | R_body_struct => (* 94 *)
      PSeq [POpt (PSeq [PRef R_ws; PRef R_mark_struct]); POpt (PAlt [PSeq [PRef R_ws; PRef R_headline];
        PRef R_inline_comment]); POpt (PRef R_tail_blocks)]
  | R_body_text => (* 96 *)
      PAlt [PRef R_block_verbat; PRef R_block_normal; PRef R_block_markup; PRef R_block_embed]
  | R_headline => (* 97 *)
      PAlt [PRef R_head_verbat; PRef R_head_normal; PRef R_head_markup]
  | R_head_verbat => (* 99 *)
      PSeq [PRef R_mark_verbat; POpt (PRef R_gap); POpt (PRef R_line_verbat)]
  | R_head_normal => (* 100 *)
      PSeq [PRef R_mark_normal; POpt (PRef R_gap); POpt (PRef R_line_normal)]
  | R_head_markup => (* 101 *)
      PSeq [PRef R_mark_markup; POpt (PRef R_gap); POpt (PRef R_line_markup)]
  | R_block_embed => (* 105 *)
      PSeq [PRef R_mark_embed; PRef R_ws; PRef R_expr; POpt (PRef R_inline_comment)]
  | R_block_comment => (* 106 *)
      PSeq [PRef R_mark_comment; POpt (PRef R_line_verbat); POpt (PRef R_tail_verbat)]
  | R_inline_comment => (* 107 *)
      PSeq [PRef R_ws; PRef R_mark_comment; POpt (PRef R_verbatim)]
  | R_block_verbat => (* 109 *)
      PSeq [PRef R_mark_verbat; POpt (PRef R_line_verbat); POpt (PRef R_tail_verbat)]
  | R_block_normal => (* 110 *)
      PSeq [PRef R_mark_normal; POpt (PRef R_line_normal); POpt (PRef R_tail_normal)]
  | R_block_markup => (* 111 *)
      PSeq [PRef R_mark_markup; POpt (PRef R_line_markup); POpt (PRef R_tail_markup)]
  | R_tail_verbat => (* 113 *)
      PAlt [PSeq [PRef R_indent_s; PRef R_core_verbat; PRef R_dedent_s]; PSeq [PRef R_indent_t;
        PRef R_core_verbat; PRef R_dedent_t]]
  | R_tail_normal => (* 114 *)
      PAlt [PSeq [PRef R_indent_s; PRef R_core_normal; PRef R_dedent_s]; PSeq [PRef R_indent_t;
        PRef R_core_normal; PRef R_dedent_t]]
  | R_tail_markup => (* 115 *)
      PAlt [PSeq [PRef R_indent_s; PRef R_core_markup; PRef R_dedent_s]; PSeq [PRef R_indent_t;
        PRef R_core_markup; PRef R_dedent_t]]
  | R_core_verbat => (* 117 *)
      PPlus (PAlt [PRef R_tail_verbat; PSeq [PRef R_margin; PRef R_line_verbat]])
  | R_core_normal => (* 118 *)
      PPlus (PAlt [PRef R_tail_normal; PSeq [PRef R_margin; PRef R_line_normal]])
  | R_core_markup => (* 119 *)
      PPlus (PAlt [PRef R_tail_markup; PSeq [PRef R_margin; PRef R_line_markup]])
  | R_line_verbat => (* 121 *)
      PSeq [PRef R_verbatim; PLit []]
  | R_line_normal => (* 122 *)
      PSeq [PRef R_line_markup; PLit []]
  | R_line_markup => (* 123 *)
      PPlus (PAlt [PRef R_escape; PRef R_embedding; PRef R_text])
  | R_mark_struct => (* 125 *)
      PLit (u ":")
  | R_mark_verbat => (* 126 *)
      PLit (u "!")
  | R_mark_normal => (* 127 *)
      PLit (u "|")
  | R_mark_markup => (* 128 *)
      PLit (u "/")
  | R_mark_def => (* 130 *)
      PLit (u "%")
  | R_mark_eval => (* 131 *)
      PLit (u "$")
  | R_mark_embed => (* 132 *)
      PLit (u "@")
  | R_mark_comment => (* 133 *)
      PRx rx_mark_comment
  | R_gap => (* 135 *)
      PRx rx_gap
  | R_embedding => (* 140 *)
      PAlt [PRef R_embedding_braces; PRef R_embedding_eval]
  | R_embedding_braces => (* 141 *)
      PSeq [PLit (u "{"); PRef R_ws; PRef R_expr_augment; PRef R_ws; PLit (u "}"); POpt (PRef R_qualifier)]
  | R_embedding_eval => (* 142 *)
      PSeq [PRef R_mark_eval; PNot (PRef R_mark_eval); PRef R_expr_var]
  | R_attrs_val => (* 148 *)
      PSeq [PStar (PRef R_attr_short); PStar (PSeq [PRef R_space; PAlt [PRef R_attr_val;
        PPlus (PRef R_attr_short)]])]
  | R_attr_val => (* 149 *)
      PAlt [PRef R_attr_named; PRef R_attr_unnamed]
  | R_attr_short => (* 151 *)
      PSeq [PAlt [PLit (u "."); PLit (u "#")]; PAlt [PRef R_attr_short_lit; PRef R_embedding]]
  | R_attr_short_lit => (* 152 *)
      PRx rx_short_lit
  | R_attr_named => (* 153 *)
      PSeq [PRef R_name_xml; PRef R_ws; PLit (u "="); PRef R_ws; PRef R_value_of_attr]
  | R_attr_unnamed => (* 154 *)
      PSeq [PRef R_value_of_attr; PLit []]
  | R_value_of_attr => (* 155 *)
      PAlt [PRef R_embedding; PRef R_expr_strict]
  | R_args => (* 159 *)
      PSeq [PRef R_arg; PStar (PSeq [PRef R_comma; PRef R_arg]); POpt (PSeq [PRef R_ws; PLit (u ",")])]
  | R_arg => (* 160 *)
      PAlt [PRef R_kwarg; PRef R_expr]
  | R_kwarg => (* 161 *)
      PSeq [PRef R_name_id; PRef R_ws; PLit (u "="); PRef R_ws; PRef R_expr]
  | R_expr => (* 172 *)
      PSeq [PRef R_expr_root; PLit []]
  | R_expr_var => (* 173 *)
      PSeq [PRef R_factor_var; PLit []]
  | R_expr_factor => (* 174 *)
      PSeq [PRef R_factor; PLit []]
  | R_expr_strict => (* 175 *)
      PSeq [PRef R_factor_strict; PLit []]
  | R_expr_augment => (* 176 *)
      PAlt [PRef R_expr_tuple; PRef R_expr_root]
  | R_expr_tuple => (* 177 *)
      PSeq [PRef R_expr; PRef R_ws; PLit (u ","); PStar (PSeq [PRef R_ws; PRef R_expr; PRef R_ws;
        PLit (u ",")]); POpt (PSeq [PRef R_ws; PRef R_expr])]
  | R_expr_bitwise => (* 178 *)
      PSeq [PRef R_or_expr; PLit []]
  | R_subexpr => (* 180 *)
      PSeq [PLit (u "("); PRef R_ws; PRef R_expr; PRef R_ws; PLit (u ")")]
  | R_tag_use => (* 182 *)
      PSeq [PRef R_mark_def; PRef R_name_id; PLit []]
  | R_var_use => (* 183 *)
      PSeq [POpt (PRef R_mark_eval); PRef R_name_id; PLit []]
  | R_tuple => (* 184 *)
      PSeq [PLit (u "("); PRef R_ws; POpt (PSeq [PPlus (PSeq [PRef R_expr; PRef R_comma]);
        POpt (PSeq [PRef R_expr; PRef R_ws])]); PLit (u ")")]
  | R_list => (* 185 *)
      PSeq [PLit (u "["); PRef R_ws; PStar (PSeq [PRef R_expr; PRef R_comma]); POpt (PSeq [PRef R_expr;
        PRef R_ws]); PLit (u "]")]
  | R_set => (* 186 *)
      PSeq [PLit (u "{"); PRef R_ws; PRef R_expr; PStar (PSeq [PRef R_comma; PRef R_expr]); PRef R_ws;
        POpt (PSeq [PLit (u ","); PRef R_ws]); PLit (u "}")]
  | R_dict => (* 187 *)
      PSeq [PLit (u "{"); PRef R_ws; PStar (PSeq [PRef R_dict_pair; PRef R_comma]);
        POpt (PSeq [PRef R_dict_pair; PRef R_ws]); PLit (u "}")]
  | R_dict_pair => (* 188 *)
      PSeq [PRef R_expr_bitwise; PRef R_ws; PLit (u ":"); PRef R_ws; PRef R_expr]
  | R_atom => (* 190 *)
      PAlt [PRef R_literal; PRef R_var_use; PRef R_tag_use; PRef R_subexpr; PRef R_tuple; PRef R_list;
        PRef R_dict; PRef R_set]
  | R_factor_var => (* 191 *)
      PSeq [PRef R_var_use; PStar (PRef R_trailer); POpt (PRef R_qualifier)]
  | R_factor_strict => (* 192 *)
      PSeq [PRef R_atom; PStar (PRef R_trailer); POpt (PRef R_qualifier)]
  | R_factor_filt => (* 193 *)
      PSeq [PRef R_atom; PStar (PRef R_trailer_filt)]
  | R_factor => (* 194 *)
      PSeq [PRef R_atom; PStar (PSeq [PRef R_ws; PRef R_trailer]); POpt (PRef R_qualifier)]
  | R_pow_expr => (* 196 *)
      PSeq [PRef R_factor; PStar (PSeq [PRef R_ws; PRef R_op_power; PRef R_ws; PRef R_factor])]
  | R_term => (* 197 *)
      PSeq [PRef R_pow_expr; PStar (PSeq [PRef R_ws; PRef R_op_multiplic; PRef R_ws; PRef R_pow_expr])]
  | R_arith_expr => (* 198 *)
      PSeq [POpt (PRef R_neg); PRef R_ws; PRef R_term; PStar (PSeq [PRef R_ws; PRef R_op_additive;
        PRef R_ws; PRef R_term])]
  | R_shift_expr => (* 199 *)
      PSeq [PRef R_arith_expr; PStar (PSeq [PRef R_ws; PRef R_op_shift; PRef R_ws; PRef R_arith_expr])]
  | R_and_expr => (* 201 *)
      PSeq [PRef R_shift_expr; PStar (PSeq [PRef R_ws; PLit (u "&"); PRef R_ws; PRef R_shift_expr])]
  | R_xor_expr => (* 202 *)
      PSeq [PRef R_and_expr; PStar (PSeq [PRef R_ws; PLit (u "^"); PRef R_ws; PRef R_and_expr])]
  | R_or_expr => (* 203 *)
      PSeq [PRef R_xor_expr; PStar (PSeq [PRef R_ws; PLit (u "|"); PRef R_ws; PRef R_xor_expr])]
  | R_pipeline => (* 205 *)
      PSeq [PRef R_or_expr; PStar (PSeq [PRef R_ws; PLit (u ":"); PRef R_ws; PRef R_filter])]
  | R_concat_expr => (* 206 *)
      PSeq [PRef R_pipeline; PStar (PSeq [PRef R_space; PRef R_pipeline])]
  | R_comparison => (* 208 *)
      PSeq [PRef R_concat_expr; PStar (PSeq [PRef R_ws; PRef R_op_comp; PRef R_ws; PRef R_concat_expr])]
  | R_not_test => (* 209 *)
      PSeq [PStar (PSeq [PRef R_not; PRef R_space]); PRef R_comparison]
  | R_and_test => (* 210 *)
      PSeq [PRef R_not_test; PStar (PSeq [PRef R_space; PLit (u "and"); PRef R_space; PRef R_not_test])]
  | R_or_test => (* 211 *)
      PSeq [PRef R_and_test; PStar (PSeq [PRef R_space; PLit (u "or"); PRef R_space; PRef R_and_test])]
  | R_ifelse_test => (* 212 *)
      PSeq [PRef R_or_test; POpt (PSeq [PRef R_space; PLit (u "if"); PRef R_space; PRef R_or_test;
        POpt (PSeq [PRef R_space; PLit (u "else"); PRef R_space; PRef R_ifelse_test])])]
  | R_expr_root => (* 216 *)
      PSeq [PRef R_ifelse_test; PLit []]
  | R_slice_value => (* 221 *)
      PSeq [PRef R_ws; POpt (PSeq [PRef R_expr_bitwise; PRef R_ws])]
  | R_slice => (* 222 *)
      PSeq [PRef R_slice_value; PLit (u ":"); PRef R_slice_value; POpt (PSeq [PLit (u ":");
        PRef R_slice_value])]
  | R_subscript => (* 223 *)
      PAlt [PRef R_slice; PSeq [PRef R_ws; PRef R_expr_augment; PRef R_ws]]
  | R_call => (* 225 *)
      PSeq [PLit (u "("); PRef R_ws; POpt (PSeq [PRef R_args; PRef R_ws]); PLit (u ")")]
  | R_index => (* 226 *)
      PSeq [PLit (u "["); PRef R_subscript; PLit (u "]")]
  | R_member => (* 227 *)
      PSeq [PLit (u "."); PRef R_ws; PRef R_name_id]
  | R_trailer => (* 228 *)
      PAlt [PRef R_call; PRef R_index; PRef R_member]
  | R_trailer_filt => (* 229 *)
      PAlt [PRef R_index; PRef R_member]
  | R_partial_call => (* 231 *)
      PSeq [PLit (u "("); PRef R_ws; POpt (PSeq [PRef R_args; PRef R_ws]); PLit (u ")")]
  | R_filter => (* 232 *)
      PSeq [PRef R_factor_filt; POpt (PRef R_partial_call)]
  | R_qualifier => (* 234 *)
      PRx rx_qualifier
  | R_op_power => (* 241 *)
      PLit (u "**")
  | R_neg => (* 242 *)
      PLit (u "-")
  | R_op_multiplic => (* 243 *)
      PAlt [PLit (u "*"); PLit (u "//"); PLit (u "/"); PLit (u "%")]
  | R_op_additive => (* 244 *)
      PAlt [PLit (u "+"); PLit (u "-")]
  | R_op_shift => (* 245 *)
      PAlt [PLit (u "<<"); PLit (u ">>")]
  | R_op_empty => (* 246 *)
      PAlt [PLit (u "?"); PLit (u "!")]
  | R_not => (* 248 *)
      PLit (u "not")
  | R_op_comp => (* 249 *)
      PRx rx_op_comp
  | R_symbol => (* 253 *)
      PSeq [PAlt [PRef R_mark_def; PRef R_mark_eval]; PRef R_name_id]
  | R_name_id => (* 254 *)
      PSeq [PNot (PRef R_name_reserved); PRx rx_name_id]
  | R_name_reserved => (* 255 *)
      PRx (rx_reserved U)
  | R_name_xml => (* 259 *)
      PRx rx_name_xml
  | R_literal => (* 264 *)
      PAlt [PRef R_number; PRef R_string; PRef R_boolean; PRef R_none]
  | R_number_signed => (* 266 *)
      PSeq [PRx rx_sign; PRef R_number]
  | R_number => (* 267 *)
      PRx (rx_number U)
  | R_boolean => (* 269 *)
      PAlt [PLit (u "True"); PLit (u "False")]
  | R_none => (* 270 *)
      PLit (u "None")
  | R_string => (* 272 *)
      PAlt [PRef R_string_format; PRef R_string_raw]
  | R_string_raw => (* 273 *)
      PAlt [PRx rx_raw1; PRx rx_raw2]
  | R_string_format => (* 275 *)
      PAlt [PRef R_string_quot1; PRef R_string_quot2]
  | R_string_quot1 => (* 276 *)
      PSeq [PLit (u "'"); PStar (PAlt [PRef R_escape; PRef R_embedding; PRef R_text_quot1]); PLit (u "'")]
  | R_string_quot2 => (* 277 *)
      PSeq [PLit (u """"); PStar (PAlt [PRef R_escape; PRef R_embedding; PRef R_text_quot2]); PLit (u """")]
  | R_escape => (* 282 *)
      PRx rx_escape
  | R_verbatim => (* 284 *)
      PRx (rx_verbatim y)
  | R_text => (* 285 *)
      PRx (rx_text y)
  | R_text_quot1 => (* 286 *)
      PRx (rx_quot1 y)
  | R_text_quot2 => (* 287 *)
      PRx (rx_quot2 y)
  | R_indent_s => (* 289 *)
      PLit [INDENT_S y]
  | R_dedent_s => (* 290 *)
      PLit [DEDENT_S y]
  | R_indent_t => (* 291 *)
      PLit [INDENT_T y]
  | R_dedent_t => (* 292 *)
      PLit [DEDENT_T y]
  | R_margin_out => (* 294 *)
      PSeq [PRef R_nl; PLit []]
  | R_margin => (* 295 *)
      PSeq [PRef R_nl; PLit []]
  | R_nl => (* 296 *)
      PRx rx_nl
  | R_comma => (* 298 *)
      PSeq [PRef R_ws; PLit (u ","); PRef R_ws]
  | R_space => (* 299 *)
      PRx rx_space
  | R_ws => (* 300 *)
      PRx rx_ws
  end.
