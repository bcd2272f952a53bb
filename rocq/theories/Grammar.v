(** The IDL grammar, transcribed rule by rule from include/xtypes/idl/grammar.hpp:30-328 by tools/peg2coq.py.
    The comment after each rule gives its line(s).  [Ref] is a reference, [Tok] is < ... >, [Ign] is ~ before an
    operand; [ignored] lists the rules defined with ~. *)
From Verif Require Import Base Peg0.
Local Open Scope string_scope.

Inductive rule :=
 | R_DOCUMENT | R_SPECIFICATION | R_DEFINITION | R_MODULE_DCL | R_SCOPED_NAME | R_PREPROCESSOR_DIRECTIVE
 | R_EOL | R_NL_ESCAPE | R_COMMENT | R_LINE_COMMENT | R_BLOCK_COMMENT | R_IDENTIFIER
 | R_CONST_DCL | R_CONST_TYPE | R_CONST_EXPR | R_XOR_EXPR | R_AND_EXPR | R_SHIFT_EXPR
 | R_ADD_EXPR | R_MULT_EXPR | R_UNARY_EXPR | R_PRIMARY_EXPR | R_SCOPED_OR_LITERAL | R_ANY_SHITF_OP
 | R_ANY_ADD_OP | R_ANY_MULT_OP | R_LITERAL | R_POSITIVE_INT_CONST | R_TYPE_DCL | R_TYPE_SPEC
 | R_SIMPLE_TYPE_SPEC | R_BASE_TYPE_SPEC | R_FLOAT_TYPE | R_DOUBLE_TYPE | R_LONG_DOUBLE_TYPE | R_INTEGER_TYPE
 | R_SIGNED_INT | R_UNSIGNED_INT | R_SIGNED_SHORT_INT | R_SIGNED_LONG_INT | R_SIGNED_LONGLONG_INT | R_UNSIGNED_SHORT_INT
 | R_UNSIGNED_LONG_INT | R_UNSIGNED_LONGLONG_INT | R_SIGNED_TINY_INT | R_UNSIGNED_TINY_INT | R_CHAR_TYPE | R_WIDE_CHAR_TYPE
 | R_BOOLEAN_TYPE | R_OCTET_TYPE | R_ANY_TYPE | R_TEMPLATE_TYPE_SPEC | R_SEQUENCE_TYPE | R_SEQUENCE_INNER_TYPE
 | R_SEQUENCE_SIZE | R_STRING_TYPE | R_WIDE_STRING_TYPE | R_FIXED_PT_TYPE | R_FIXED_PT_CONST_TYPE | R_STRING_SIZE
 | R_WSTRING_SIZE | R_COLLECTION_SIZE | R_CONSTR_TYPE_DLC | R_STRUCT_DCL | R_STRUCT_DEF | R_INHERITANCE
 | R_MEMBER | R_STRUCT_FORWARD_DCL | R_UNION_DCL | R_UNION_DEF | R_SWITCH_TYPE_SPEC | R_SWITCH_BODY
 | R_CASE | R_CASE_LABEL | R_ELEMENT_SPEC | R_UNION_FORWARD_DCL | R_ENUM_DCL | R_ENUMERATOR
 | R_ARRAY_DECLARATOR | R_FIXED_ARRAY_SIZE | R_NATIVE_DCL | R_SIMPLE_DECLARATOR | R_TYPEDEF_DLC | R_TYPE_DECLARATOR
 | R_ANY_DECLARATORS | R_ANY_DECLARATOR | R_DECLARATORS | R_DECLARATOR | R_MAP_TYPE | R_MAP_INNER_TYPE
 | R_MAP_KEY_TYPE | R_MAP_SIZE | R_BITSET_DCL | R_BITFIELD | R_BITFIELD_SPEC | R_DESTINATION_TYPE
 | R_BITMASK_DCL | R_BIT_VALUE | R_ANNOTATION_DCL | R_ANNOTATION_HEADER | R_ANNOTATION_BODY | R_ANNOTATION_MEMBER
 | R_ANNOTATION_MEMBER_TYPE | R_ANY_CONST_TYPE | R_ANNOTATION_APPL | R_ANNOTATION_APPL_PARAMS | R_ANNOTATION_APPL_PARAM | R_BOOLEAN_LITERAL
 | R_INTEGER_LITERAL | R_DEC_LITERAL | R_OCT_LITERAL | R_HEX_LITERAL | R_CHAR_LITERAL | R_WIDE_CHAR_LITERAL
 | R_STRING_LITERAL | R_SUBSTRING_LITERAL | R_STRING_WS | R_WIDE_STRING_LITERAL | R_WIDE_SUBSTRING_LITERAL | R_FLOAT_LITERAL
 | R_FIXED_PT_LITERAL | R_EXP_OR_SUFFIX | R_EXPONENT | R_FLOAT_TYPE_SUFFIX | R_ESCAPE_SEQUENCE | R_ES_NEW_LINE
 | R_ES_H_TAB | R_ES_V_TAB | R_ES_BACKSPACE | R_ES_CARRIAGE_RETURN | R_ES_FORM_FEED | R_ES_ALERT
 | R_ES_BACKSLASH | R_ES_QUESTION_MARK | R_ES_SINGLE_QUOTE | R_ES_DOUBLE_QUOTE | R_ES_OCTAL | R_ES_HEX
 | R_ES_UNICODE | R_ES_OCTAL_NUMBER | R_ES_HEX_NUMBER | R_ES_UNICODE_CHAR | R_END_KW | R_KW_CONST
 | R_KW_MODULE | R_KW_SEQUENCE | R_KW_STRING | R_KW_WSTRING | R_KW_FIXED | R_KW_UNION
 | R_KW_STRUCT | R_KW_ENUM | R_KW_SWITCH | R_KW_CASE | R_KW_DEFAULT | R_KW_NATIVE
 | R_KW_TYPEDEF | R_KW_ANY | R_KW_MAP | R_KW_BITSET | R_KW_BITFIELD | R_KW_BITMASK
 | R_KW_ANNOTATION | R_KW_SHORT | R_KW_INT16 | R_KW_LONG | R_KW_LONG_LONG | R_KW_INT32
 | R_KW_INT64 | R_KW_UNSIGNED_LONG | R_KW_UNSIGNED_LONG_LONG | R_KW_UNSIGNED_SHORT | R_KW_UINT16 | R_KW_UINT32
 | R_KW_UINT64 | R_KW_INT8 | R_KW_UINT8 | R_KW_CHAR | R_KW_WCHAR | R_KW_BOOLEAN
 | R_KW_OCTET | R_KW_FLOAT | R_KW_DOUBLE | R_KW_LONG_DOUBLE | R_KW_LINE_COMMENT | R_KW_OPEN_BLOCK_COMMENT
 | R_KW_CLOSE_BLOCK_COMMENT | R_WS | R_SEMICOLON | R_COLON | R_DOUBLE_COLON | R_COMMA
 | R_OPEN_PARENTHESES | R_CLOSE_PARENTHESES | R_OPEN_BRACKET | R_CLOSE_BRACKET | R_OPEN_ANG_BRACKET | R_CLOSE_ANG_BRACKET
 | R_OPEN_BRACE | R_CLOSE_BRACE | R_EQUAL_OP | R_OR_OP | R_XOR_OP | R_AND_OP
 | R_LSHIFT_OP | R_RSHIFT_OP | R_ADD_OP | R_SUB_OP | R_MULT_OP | R_DIV_OP
 | R_MOD_OP | R_NEG_OP | R_UNARY_OP | R_DECIMAL_DIGIT | R_OCTAL_DIGIT | R_HEX_DIGIT.

(** A number for each rule, to compare tags (peg::str2tag hashes the name). *)
Definition rule_idx (r : rule) : N :=
  match r with
  | R_DOCUMENT => 0
  | R_SPECIFICATION => 1
  | R_DEFINITION => 2
  | R_MODULE_DCL => 3
  | R_SCOPED_NAME => 4
  | R_PREPROCESSOR_DIRECTIVE => 5
  | R_EOL => 6
  | R_NL_ESCAPE => 7
  | R_COMMENT => 8
  | R_LINE_COMMENT => 9
  | R_BLOCK_COMMENT => 10
  | R_IDENTIFIER => 11
  | R_CONST_DCL => 12
  | R_CONST_TYPE => 13
  | R_CONST_EXPR => 14
  | R_XOR_EXPR => 15
  | R_AND_EXPR => 16
  | R_SHIFT_EXPR => 17
  | R_ADD_EXPR => 18
  | R_MULT_EXPR => 19
  | R_UNARY_EXPR => 20
  | R_PRIMARY_EXPR => 21
  | R_SCOPED_OR_LITERAL => 22
  | R_ANY_SHITF_OP => 23
  | R_ANY_ADD_OP => 24
  | R_ANY_MULT_OP => 25
  | R_LITERAL => 26
  | R_POSITIVE_INT_CONST => 27
  | R_TYPE_DCL => 28
  | R_TYPE_SPEC => 29
  | R_SIMPLE_TYPE_SPEC => 30
  | R_BASE_TYPE_SPEC => 31
  | R_FLOAT_TYPE => 32
  | R_DOUBLE_TYPE => 33
  | R_LONG_DOUBLE_TYPE => 34
  | R_INTEGER_TYPE => 35
  | R_SIGNED_INT => 36
  | R_UNSIGNED_INT => 37
  | R_SIGNED_SHORT_INT => 38
  | R_SIGNED_LONG_INT => 39
  | R_SIGNED_LONGLONG_INT => 40
  | R_UNSIGNED_SHORT_INT => 41
  | R_UNSIGNED_LONG_INT => 42
  | R_UNSIGNED_LONGLONG_INT => 43
  | R_SIGNED_TINY_INT => 44
  | R_UNSIGNED_TINY_INT => 45
  | R_CHAR_TYPE => 46
  | R_WIDE_CHAR_TYPE => 47
  | R_BOOLEAN_TYPE => 48
  | R_OCTET_TYPE => 49
  | R_ANY_TYPE => 50
  | R_TEMPLATE_TYPE_SPEC => 51
  | R_SEQUENCE_TYPE => 52
  | R_SEQUENCE_INNER_TYPE => 53
  | R_SEQUENCE_SIZE => 54
  | R_STRING_TYPE => 55
  | R_WIDE_STRING_TYPE => 56
  | R_FIXED_PT_TYPE => 57
  | R_FIXED_PT_CONST_TYPE => 58
  | R_STRING_SIZE => 59
  | R_WSTRING_SIZE => 60
  | R_COLLECTION_SIZE => 61
  | R_CONSTR_TYPE_DLC => 62
  | R_STRUCT_DCL => 63
  | R_STRUCT_DEF => 64
  | R_INHERITANCE => 65
  | R_MEMBER => 66
  | R_STRUCT_FORWARD_DCL => 67
  | R_UNION_DCL => 68
  | R_UNION_DEF => 69
  | R_SWITCH_TYPE_SPEC => 70
  | R_SWITCH_BODY => 71
  | R_CASE => 72
  | R_CASE_LABEL => 73
  | R_ELEMENT_SPEC => 74
  | R_UNION_FORWARD_DCL => 75
  | R_ENUM_DCL => 76
  | R_ENUMERATOR => 77
  | R_ARRAY_DECLARATOR => 78
  | R_FIXED_ARRAY_SIZE => 79
  | R_NATIVE_DCL => 80
  | R_SIMPLE_DECLARATOR => 81
  | R_TYPEDEF_DLC => 82
  | R_TYPE_DECLARATOR => 83
  | R_ANY_DECLARATORS => 84
  | R_ANY_DECLARATOR => 85
  | R_DECLARATORS => 86
  | R_DECLARATOR => 87
  | R_MAP_TYPE => 88
  | R_MAP_INNER_TYPE => 89
  | R_MAP_KEY_TYPE => 90
  | R_MAP_SIZE => 91
  | R_BITSET_DCL => 92
  | R_BITFIELD => 93
  | R_BITFIELD_SPEC => 94
  | R_DESTINATION_TYPE => 95
  | R_BITMASK_DCL => 96
  | R_BIT_VALUE => 97
  | R_ANNOTATION_DCL => 98
  | R_ANNOTATION_HEADER => 99
  | R_ANNOTATION_BODY => 100
  | R_ANNOTATION_MEMBER => 101
  | R_ANNOTATION_MEMBER_TYPE => 102
  | R_ANY_CONST_TYPE => 103
  | R_ANNOTATION_APPL => 104
  | R_ANNOTATION_APPL_PARAMS => 105
  | R_ANNOTATION_APPL_PARAM => 106
  | R_BOOLEAN_LITERAL => 107
  | R_INTEGER_LITERAL => 108
  | R_DEC_LITERAL => 109
  | R_OCT_LITERAL => 110
  | R_HEX_LITERAL => 111
  | R_CHAR_LITERAL => 112
  | R_WIDE_CHAR_LITERAL => 113
  | R_STRING_LITERAL => 114
  | R_SUBSTRING_LITERAL => 115
  | R_STRING_WS => 116
  | R_WIDE_STRING_LITERAL => 117
  | R_WIDE_SUBSTRING_LITERAL => 118
  | R_FLOAT_LITERAL => 119
  | R_FIXED_PT_LITERAL => 120
  | R_EXP_OR_SUFFIX => 121
  | R_EXPONENT => 122
  | R_FLOAT_TYPE_SUFFIX => 123
  | R_ESCAPE_SEQUENCE => 124
  | R_ES_NEW_LINE => 125
  | R_ES_H_TAB => 126
  | R_ES_V_TAB => 127
  | R_ES_BACKSPACE => 128
  | R_ES_CARRIAGE_RETURN => 129
  | R_ES_FORM_FEED => 130
  | R_ES_ALERT => 131
  | R_ES_BACKSLASH => 132
  | R_ES_QUESTION_MARK => 133
  | R_ES_SINGLE_QUOTE => 134
  | R_ES_DOUBLE_QUOTE => 135
  | R_ES_OCTAL => 136
  | R_ES_HEX => 137
  | R_ES_UNICODE => 138
  | R_ES_OCTAL_NUMBER => 139
  | R_ES_HEX_NUMBER => 140
  | R_ES_UNICODE_CHAR => 141
  | R_END_KW => 142
  | R_KW_CONST => 143
  | R_KW_MODULE => 144
  | R_KW_SEQUENCE => 145
  | R_KW_STRING => 146
  | R_KW_WSTRING => 147
  | R_KW_FIXED => 148
  | R_KW_UNION => 149
  | R_KW_STRUCT => 150
  | R_KW_ENUM => 151
  | R_KW_SWITCH => 152
  | R_KW_CASE => 153
  | R_KW_DEFAULT => 154
  | R_KW_NATIVE => 155
  | R_KW_TYPEDEF => 156
  | R_KW_ANY => 157
  | R_KW_MAP => 158
  | R_KW_BITSET => 159
  | R_KW_BITFIELD => 160
  | R_KW_BITMASK => 161
  | R_KW_ANNOTATION => 162
  | R_KW_SHORT => 163
  | R_KW_INT16 => 164
  | R_KW_LONG => 165
  | R_KW_LONG_LONG => 166
  | R_KW_INT32 => 167
  | R_KW_INT64 => 168
  | R_KW_UNSIGNED_LONG => 169
  | R_KW_UNSIGNED_LONG_LONG => 170
  | R_KW_UNSIGNED_SHORT => 171
  | R_KW_UINT16 => 172
  | R_KW_UINT32 => 173
  | R_KW_UINT64 => 174
  | R_KW_INT8 => 175
  | R_KW_UINT8 => 176
  | R_KW_CHAR => 177
  | R_KW_WCHAR => 178
  | R_KW_BOOLEAN => 179
  | R_KW_OCTET => 180
  | R_KW_FLOAT => 181
  | R_KW_DOUBLE => 182
  | R_KW_LONG_DOUBLE => 183
  | R_KW_LINE_COMMENT => 184
  | R_KW_OPEN_BLOCK_COMMENT => 185
  | R_KW_CLOSE_BLOCK_COMMENT => 186
  | R_WS => 187
  | R_SEMICOLON => 188
  | R_COLON => 189
  | R_DOUBLE_COLON => 190
  | R_COMMA => 191
  | R_OPEN_PARENTHESES => 192
  | R_CLOSE_PARENTHESES => 193
  | R_OPEN_BRACKET => 194
  | R_CLOSE_BRACKET => 195
  | R_OPEN_ANG_BRACKET => 196
  | R_CLOSE_ANG_BRACKET => 197
  | R_OPEN_BRACE => 198
  | R_CLOSE_BRACE => 199
  | R_EQUAL_OP => 200
  | R_OR_OP => 201
  | R_XOR_OP => 202
  | R_AND_OP => 203
  | R_LSHIFT_OP => 204
  | R_RSHIFT_OP => 205
  | R_ADD_OP => 206
  | R_SUB_OP => 207
  | R_MULT_OP => 208
  | R_DIV_OP => 209
  | R_MOD_OP => 210
  | R_NEG_OP => 211
  | R_UNARY_OP => 212
  | R_DECIMAL_DIGIT => 213
  | R_OCTAL_DIGIT => 214
  | R_HEX_DIGIT => 215
  end%N.
Definition rule_eqb (a b : rule) : bool := N.eqb (rule_idx a) (rule_idx b).

Definition gram (r : rule) : exp rule :=
  match r with
  | R_DOCUMENT => Seq (Opt (Ref R_WS)) (Seq (Ref R_SPECIFICATION) (Opt (Ref R_WS))) (* 33 *)
  | R_SPECIFICATION => Plus (Ref R_DEFINITION) (* 34 *)
  | R_DEFINITION => Alt (Seq (Alt (Ref R_MODULE_DCL) (Alt (Ref R_CONST_DCL) (Alt (Ref R_TYPE_DCL) (Ref R_ANNOTATION_DCL)))) (Ref R_SEMICOLON)) (Ref R_PREPROCESSOR_DIRECTIVE) (* 35 *)
  | R_MODULE_DCL => Seq (Star (Ref R_ANNOTATION_APPL)) (Seq (Ref R_KW_MODULE) (Seq (Ref R_IDENTIFIER) (Seq (Ref R_OPEN_BRACE) (Seq (Plus (Ref R_DEFINITION)) (Ref R_CLOSE_BRACE))))) (* 37 *)
  | R_SCOPED_NAME => Tok (Alt (Seq (Ref R_IDENTIFIER) (Seq (Ref R_DOUBLE_COLON) (Ref R_SCOPED_NAME))) (Alt (Seq (Ref R_DOUBLE_COLON) (Ref R_SCOPED_NAME)) (Ref R_IDENTIFIER))) (* 39 *)
  | R_PREPROCESSOR_DIRECTIVE => Seq (Opt (Ref R_WS)) (Seq (Tok (Seq (Lit "#") (Star (Alt (Ref R_NL_ESCAPE) (Seq (Not (Ref R_EOL)) Any))))) (Ref R_EOL)) (* 41 *)
  | R_EOL => Alt (Lit (CR ++ NL)) (Alt (Lit NL) (Alt (Lit CR) (Not Any))) (* 42 *)
  | R_NL_ESCAPE => Seq (Lit "\") (Ref R_EOL) (* 43 *)
  | R_COMMENT => Alt (Ref R_LINE_COMMENT) (Ref R_BLOCK_COMMENT) (* 45 *)
  | R_LINE_COMMENT => Seq (Star (Cls [(" "%char, " "%char); ("010"%char, "010"%char)])) (Seq (Ref R_KW_LINE_COMMENT) (Seq (Star (Alt (Ref R_NL_ESCAPE) (Seq (Not (Ref R_EOL)) Any))) (Seq (Ref R_EOL) (Opt (Ref R_WS))))) (* 46 *)
  | R_BLOCK_COMMENT => Seq (Star (Cls [(" "%char, " "%char); ("010"%char, "010"%char)])) (Seq (Ref R_KW_OPEN_BLOCK_COMMENT) (Seq (Star (Seq (Not (Ref R_KW_CLOSE_BLOCK_COMMENT)) Any)) (Seq (Ref R_KW_CLOSE_BLOCK_COMMENT) (Opt (Ref R_WS))))) (* 47 *)
  | R_IDENTIFIER => Seq (Cls [("a"%char, "z"%char); ("A"%char, "Z"%char); ("_"%char, "_"%char)]) (Star (Cls [("0"%char, "9"%char); ("a"%char, "z"%char); ("A"%char, "Z"%char); ("_"%char, "_"%char)])) (* 49 *)
  | R_CONST_DCL => Seq (Ref R_KW_CONST) (Seq (Ref R_CONST_TYPE) (Seq (Opt (Ref R_WS)) (Seq (Ref R_IDENTIFIER) (Seq (Ign (Ref R_EQUAL_OP)) (Ref R_CONST_EXPR))))) (* 51 *)
  | R_CONST_TYPE => Alt (Ref R_FLOAT_TYPE) (Alt (Ref R_DOUBLE_TYPE) (Alt (Ref R_LONG_DOUBLE_TYPE) (Alt (Ref R_FIXED_PT_CONST_TYPE) (Alt (Ref R_INTEGER_TYPE) (Alt (Ref R_CHAR_TYPE) (Alt (Ref R_WIDE_CHAR_TYPE) (Alt (Ref R_BOOLEAN_TYPE) (Alt (Ref R_STRING_TYPE) (Alt (Ref R_WIDE_STRING_TYPE) (Ref R_SCOPED_NAME)))))))))) (* 53-64 *)
  | R_CONST_EXPR => Alt (Seq (Ref R_XOR_EXPR) (Seq (Ref R_OR_OP) (Ref R_CONST_EXPR))) (Ref R_XOR_EXPR) (* 69 *)
  | R_XOR_EXPR => Alt (Seq (Ref R_AND_EXPR) (Seq (Ref R_XOR_OP) (Ref R_XOR_EXPR))) (Ref R_AND_EXPR) (* 70 *)
  | R_AND_EXPR => Alt (Seq (Ref R_SHIFT_EXPR) (Seq (Ref R_AND_OP) (Ref R_AND_EXPR))) (Ref R_SHIFT_EXPR) (* 71 *)
  | R_SHIFT_EXPR => Alt (Seq (Ref R_ADD_EXPR) (Seq (Ref R_ANY_SHITF_OP) (Ref R_SHIFT_EXPR))) (Ref R_ADD_EXPR) (* 72 *)
  | R_ADD_EXPR => Alt (Seq (Ref R_MULT_EXPR) (Seq (Ref R_ANY_ADD_OP) (Ref R_ADD_EXPR))) (Ref R_MULT_EXPR) (* 73 *)
  | R_MULT_EXPR => Alt (Seq (Ref R_UNARY_EXPR) (Seq (Ref R_ANY_MULT_OP) (Ref R_MULT_EXPR))) (Ref R_UNARY_EXPR) (* 74 *)
  | R_UNARY_EXPR => Alt (Seq (Ref R_UNARY_OP) (Ref R_PRIMARY_EXPR)) (Ref R_PRIMARY_EXPR) (* 75 *)
  | R_PRIMARY_EXPR => Alt (Seq (Ref R_OPEN_PARENTHESES) (Seq (Ref R_CONST_EXPR) (Ref R_CLOSE_PARENTHESES))) (Ref R_SCOPED_OR_LITERAL) (* 76 *)
  | R_SCOPED_OR_LITERAL => Alt (Ref R_LITERAL) (Ref R_SCOPED_NAME) (* 77 *)
  | R_ANY_SHITF_OP => Alt (Ref R_LSHIFT_OP) (Ref R_RSHIFT_OP) (* 79 *)
  | R_ANY_ADD_OP => Alt (Ref R_ADD_OP) (Ref R_SUB_OP) (* 80 *)
  | R_ANY_MULT_OP => Alt (Ref R_MULT_OP) (Alt (Ref R_DIV_OP) (Ref R_MOD_OP)) (* 81 *)
  | R_LITERAL => Alt (Ref R_FLOAT_LITERAL) (Alt (Ref R_FIXED_PT_LITERAL) (Alt (Ref R_INTEGER_LITERAL) (Alt (Ref R_CHAR_LITERAL) (Alt (Ref R_WIDE_CHAR_LITERAL) (Alt (Ref R_BOOLEAN_LITERAL) (Alt (Ref R_STRING_LITERAL) (Ref R_WIDE_STRING_LITERAL))))))) (* 83-90 *)
  | R_POSITIVE_INT_CONST => Alt (Ref R_INTEGER_LITERAL) (Ref R_SCOPED_NAME) (* 92 *)
  | R_TYPE_DCL => Alt (Ref R_CONSTR_TYPE_DLC) (Alt (Ref R_NATIVE_DCL) (Ref R_TYPEDEF_DLC)) (* 94 *)
  | R_TYPE_SPEC => Seq (Opt (Ref R_WS)) (Seq (Alt (Ref R_TEMPLATE_TYPE_SPEC) (Ref R_SIMPLE_TYPE_SPEC)) (Opt (Ref R_WS))) (* 95 *)
  | R_SIMPLE_TYPE_SPEC => Alt (Ref R_BASE_TYPE_SPEC) (Ref R_SCOPED_NAME) (* 96 *)
  | R_BASE_TYPE_SPEC => Alt (Ref R_FLOAT_TYPE) (Alt (Ref R_DOUBLE_TYPE) (Alt (Ref R_LONG_DOUBLE_TYPE) (Alt (Ref R_INTEGER_TYPE) (Alt (Ref R_CHAR_TYPE) (Alt (Ref R_WIDE_CHAR_TYPE) (Alt (Ref R_BOOLEAN_TYPE) (Alt (Ref R_OCTET_TYPE) (Ref R_ANY_TYPE)))))))) (* 97-106 *)
  | R_FLOAT_TYPE => Ref R_KW_FLOAT (* 107 *)
  | R_DOUBLE_TYPE => Ref R_KW_DOUBLE (* 108 *)
  | R_LONG_DOUBLE_TYPE => Ref R_KW_LONG_DOUBLE (* 109 *)
  | R_INTEGER_TYPE => Alt (Ref R_SIGNED_INT) (Ref R_UNSIGNED_INT) (* 110 *)
  | R_SIGNED_INT => Alt (Ref R_SIGNED_SHORT_INT) (Alt (Ref R_SIGNED_LONGLONG_INT) (Alt (Ref R_SIGNED_LONG_INT) (Ref R_SIGNED_TINY_INT))) (* 111 *)
  | R_UNSIGNED_INT => Alt (Ref R_UNSIGNED_SHORT_INT) (Alt (Ref R_UNSIGNED_LONGLONG_INT) (Alt (Ref R_UNSIGNED_LONG_INT) (Ref R_UNSIGNED_TINY_INT))) (* 112 *)
  | R_SIGNED_SHORT_INT => Alt (Ref R_KW_SHORT) (Ref R_KW_INT16) (* 113 *)
  | R_SIGNED_LONG_INT => Alt (Ref R_KW_LONG) (Ref R_KW_INT32) (* 114 *)
  | R_SIGNED_LONGLONG_INT => Alt (Ref R_KW_LONG_LONG) (Ref R_KW_INT64) (* 115 *)
  | R_UNSIGNED_SHORT_INT => Alt (Ref R_KW_UNSIGNED_SHORT) (Ref R_KW_UINT16) (* 116 *)
  | R_UNSIGNED_LONG_INT => Alt (Ref R_KW_UNSIGNED_LONG) (Ref R_KW_UINT32) (* 117 *)
  | R_UNSIGNED_LONGLONG_INT => Alt (Ref R_KW_UNSIGNED_LONG_LONG) (Ref R_KW_UINT64) (* 118 *)
  | R_SIGNED_TINY_INT => Ref R_KW_INT8 (* 119 *)
  | R_UNSIGNED_TINY_INT => Ref R_KW_UINT8 (* 120 *)
  | R_CHAR_TYPE => Ref R_KW_CHAR (* 121 *)
  | R_WIDE_CHAR_TYPE => Ref R_KW_WCHAR (* 122 *)
  | R_BOOLEAN_TYPE => Ref R_KW_BOOLEAN (* 123 *)
  | R_OCTET_TYPE => Ref R_KW_OCTET (* 124 *)
  | R_ANY_TYPE => Ref R_KW_ANY (* 125 *)
  | R_TEMPLATE_TYPE_SPEC => Alt (Ref R_MAP_TYPE) (Alt (Ref R_SEQUENCE_TYPE) (Alt (Ref R_STRING_TYPE) (Alt (Ref R_WIDE_STRING_TYPE) (Ref R_FIXED_PT_TYPE)))) (* 126 *)
  | R_SEQUENCE_TYPE => Seq (Ref R_KW_SEQUENCE) (Seq (Ref R_OPEN_ANG_BRACKET) (Seq (Ref R_SEQUENCE_INNER_TYPE) (Seq (Ref R_SEQUENCE_SIZE) (Ref R_CLOSE_ANG_BRACKET)))) (* 127 *)
  | R_SEQUENCE_INNER_TYPE => Ref R_TYPE_SPEC (* 128 *)
  | R_SEQUENCE_SIZE => Opt (Ref R_COLLECTION_SIZE) (* 129 *)
  | R_STRING_TYPE => Seq (Ref R_KW_STRING) (Opt (Ref R_STRING_SIZE)) (* 130 *)
  | R_WIDE_STRING_TYPE => Seq (Ref R_KW_WSTRING) (Opt (Ref R_WSTRING_SIZE)) (* 131 *)
  | R_FIXED_PT_TYPE => Seq (Ref R_KW_FIXED) (Seq (Ref R_OPEN_ANG_BRACKET) (Seq (Ref R_POSITIVE_INT_CONST) (Seq (Ref R_COMMA) (Seq (Ref R_POSITIVE_INT_CONST) (Ref R_CLOSE_ANG_BRACKET))))) (* 132 *)
  | R_FIXED_PT_CONST_TYPE => Ref R_KW_FIXED (* 133 *)
  | R_STRING_SIZE => Seq (Ref R_OPEN_ANG_BRACKET) (Seq (Tok (Ref R_POSITIVE_INT_CONST)) (Ref R_CLOSE_ANG_BRACKET)) (* 135 *)
  | R_WSTRING_SIZE => Seq (Ref R_OPEN_ANG_BRACKET) (Seq (Tok (Ref R_POSITIVE_INT_CONST)) (Ref R_CLOSE_ANG_BRACKET)) (* 136 *)
  | R_COLLECTION_SIZE => Seq (Ref R_COMMA) (Ref R_POSITIVE_INT_CONST) (* 137 *)
  | R_CONSTR_TYPE_DLC => Seq (Star (Ref R_ANNOTATION_APPL)) (Alt (Ref R_STRUCT_DCL) (Alt (Ref R_UNION_DCL) (Alt (Ref R_ENUM_DCL) (Alt (Ref R_BITSET_DCL) (Ref R_BITMASK_DCL))))) (* 139 *)
  | R_STRUCT_DCL => Alt (Ref R_STRUCT_DEF) (Ref R_STRUCT_FORWARD_DCL) (* 140 *)
  | R_STRUCT_DEF => Seq (Ref R_KW_STRUCT) (Seq (Ref R_IDENTIFIER) (Seq (Opt (Ref R_INHERITANCE)) (Seq (Ref R_OPEN_BRACE) (Seq (Star (Ref R_MEMBER)) (Ref R_CLOSE_BRACE))))) (* 141 *)
  | R_INHERITANCE => Seq (Ref R_COLON) (Ref R_SCOPED_NAME) (* 142 *)
  | R_MEMBER => Seq (Star (Ref R_ANNOTATION_APPL)) (Seq (Ref R_TYPE_SPEC) (Seq (Ref R_DECLARATORS) (Ref R_SEMICOLON))) (* 143 *)
  | R_STRUCT_FORWARD_DCL => Seq (Ref R_KW_STRUCT) (Tok (Ref R_IDENTIFIER)) (* 144 *)
  | R_UNION_DCL => Alt (Ref R_UNION_DEF) (Ref R_UNION_FORWARD_DCL) (* 145 *)
  | R_UNION_DEF => Seq (Ref R_KW_UNION) (Seq (Ref R_IDENTIFIER) (Seq (Ref R_KW_SWITCH) (Seq (Ref R_OPEN_PARENTHESES) (Seq (Ref R_SWITCH_TYPE_SPEC) (Seq (Ref R_CLOSE_PARENTHESES) (Seq (Ref R_OPEN_BRACE) (Seq (Ref R_SWITCH_BODY) (Ref R_CLOSE_BRACE)))))))) (* 146-147 *)
  | R_SWITCH_TYPE_SPEC => Alt (Ref R_INTEGER_TYPE) (Alt (Ref R_CHAR_TYPE) (Alt (Ref R_BOOLEAN_TYPE) (Alt (Ref R_WIDE_CHAR_TYPE) (Alt (Ref R_OCTET_TYPE) (Ref R_SCOPED_NAME))))) (* 148 *)
  | R_SWITCH_BODY => Plus (Ref R_CASE) (* 149 *)
  | R_CASE => Seq (Plus (Ref R_CASE_LABEL)) (Seq (Ref R_ELEMENT_SPEC) (Ref R_SEMICOLON)) (* 150 *)
  | R_CASE_LABEL => Alt (Seq (Ref R_KW_CASE) (Seq (Tok (Ref R_CONST_EXPR)) (Ref R_COLON))) (Seq (Tok (Ref R_KW_DEFAULT)) (Ref R_COLON)) (* 151 *)
  | R_ELEMENT_SPEC => Seq (Star (Ref R_ANNOTATION_APPL)) (Seq (Ref R_TYPE_SPEC) (Ref R_DECLARATOR)) (* 152 *)
  | R_UNION_FORWARD_DCL => Seq (Ref R_KW_UNION) (Tok (Ref R_IDENTIFIER)) (* 153 *)
  | R_ENUM_DCL => Seq (Ref R_KW_ENUM) (Seq (Ref R_IDENTIFIER) (Seq (Ref R_OPEN_BRACE) (Seq (Ref R_ENUMERATOR) (Seq (Star (Seq (Ref R_COMMA) (Ref R_ENUMERATOR))) (Ref R_CLOSE_BRACE))))) (* 154 *)
  | R_ENUMERATOR => Seq (Star (Ref R_ANNOTATION_APPL)) (Ref R_IDENTIFIER) (* 155 *)
  | R_ARRAY_DECLARATOR => Seq (Ref R_IDENTIFIER) (Plus (Ref R_FIXED_ARRAY_SIZE)) (* 156 *)
  | R_FIXED_ARRAY_SIZE => Seq (Ref R_OPEN_BRACKET) (Seq (Ref R_POSITIVE_INT_CONST) (Ref R_CLOSE_BRACKET)) (* 157 *)
  | R_NATIVE_DCL => Seq (Ref R_KW_NATIVE) (Ref R_SIMPLE_DECLARATOR) (* 158 *)
  | R_SIMPLE_DECLARATOR => Ref R_IDENTIFIER (* 159 *)
  | R_TYPEDEF_DLC => Seq (Ref R_KW_TYPEDEF) (Ref R_TYPE_DECLARATOR) (* 160 *)
  | R_TYPE_DECLARATOR => Seq (Alt (Ref R_CONSTR_TYPE_DLC) (Alt (Ref R_TEMPLATE_TYPE_SPEC) (Ref R_SIMPLE_TYPE_SPEC))) (Seq (Opt (Ref R_WS)) (Ref R_ANY_DECLARATORS)) (* 161 *)
  | R_ANY_DECLARATORS => Seq (Ref R_ANY_DECLARATOR) (Star (Seq (Ref R_COMMA) (Ref R_ANY_DECLARATOR))) (* 162 *)
  | R_ANY_DECLARATOR => Alt (Ref R_ARRAY_DECLARATOR) (Alt (Ref R_SIMPLE_DECLARATOR) Eps) (* 163 *)
  | R_DECLARATORS => Seq (Ref R_DECLARATOR) (Star (Seq (Ref R_COMMA) (Ref R_DECLARATOR))) (* 164 *)
  | R_DECLARATOR => Alt (Ref R_ARRAY_DECLARATOR) (Ref R_SIMPLE_DECLARATOR) (* 165 *)
  | R_MAP_TYPE => Seq (Ref R_KW_MAP) (Seq (Ref R_OPEN_ANG_BRACKET) (Seq (Ref R_MAP_KEY_TYPE) (Seq (Ref R_COMMA) (Seq (Ref R_MAP_INNER_TYPE) (Seq (Ref R_MAP_SIZE) (Ref R_CLOSE_ANG_BRACKET)))))) (* 168 *)
  | R_MAP_INNER_TYPE => Ref R_TYPE_SPEC (* 169 *)
  | R_MAP_KEY_TYPE => Ref R_TYPE_SPEC (* 170 *)
  | R_MAP_SIZE => Opt (Ref R_COLLECTION_SIZE) (* 171 *)
  | R_BITSET_DCL => Seq (Ref R_KW_BITSET) (Seq (Ref R_IDENTIFIER) (Seq (Opt (Ref R_INHERITANCE)) (Seq (Ref R_OPEN_BRACE) (Seq (Star (Ref R_BITFIELD)) (Ref R_CLOSE_BRACE))))) (* 172 *)
  | R_BITFIELD => Seq (Star (Ref R_ANNOTATION_APPL)) (Seq (Ref R_BITFIELD_SPEC) (Seq (Star (Ref R_IDENTIFIER)) (Ref R_SEMICOLON))) (* 173 *)
  | R_BITFIELD_SPEC => Seq (Ref R_KW_BITFIELD) (Seq (Ref R_OPEN_ANG_BRACKET) (Seq (Ref R_POSITIVE_INT_CONST) (Seq (Opt (Seq (Ref R_COMMA) (Ref R_DESTINATION_TYPE))) (Ref R_CLOSE_ANG_BRACKET)))) (* 174 *)
  | R_DESTINATION_TYPE => Alt (Ref R_BOOLEAN_TYPE) (Alt (Ref R_OCTET_TYPE) (Ref R_INTEGER_TYPE)) (* 175 *)
  | R_BITMASK_DCL => Seq (Ref R_KW_BITMASK) (Seq (Ref R_IDENTIFIER) (Seq (Ref R_OPEN_BRACE) (Seq (Ref R_BIT_VALUE) (Seq (Star (Seq (Ref R_COMMA) (Ref R_BIT_VALUE))) (Ref R_CLOSE_BRACE))))) (* 176 *)
  | R_BIT_VALUE => Seq (Star (Seq (Ref R_ANNOTATION_APPL) (Opt (Ref R_WS)))) (Ref R_IDENTIFIER) (* 177 *)
  | R_ANNOTATION_DCL => Seq (Ref R_ANNOTATION_HEADER) (Seq (Ref R_OPEN_BRACE) (Seq (Ref R_ANNOTATION_BODY) (Ref R_CLOSE_BRACE))) (* 180 *)
  | R_ANNOTATION_HEADER => Seq (Ref R_KW_ANNOTATION) (Ref R_IDENTIFIER) (* 181 *)
  | R_ANNOTATION_BODY => Star (Alt (Ref R_ANNOTATION_MEMBER) (Alt (Seq (Ref R_ENUM_DCL) (Ref R_SEMICOLON)) (Alt (Seq (Ref R_CONST_DCL) (Ref R_SEMICOLON)) (Seq (Ref R_TYPEDEF_DLC) (Ref R_SEMICOLON))))) (* 182 *)
  | R_ANNOTATION_MEMBER => Seq (Opt (Ref R_WS)) (Seq (Ref R_ANNOTATION_MEMBER_TYPE) (Seq (Opt (Ref R_WS)) (Seq (Ref R_SIMPLE_DECLARATOR) (Seq (Opt (Seq (Ref R_KW_DEFAULT) (Ref R_CONST_EXPR))) (Ref R_SEMICOLON))))) (* 183 *)
  | R_ANNOTATION_MEMBER_TYPE => Alt (Ref R_CONST_TYPE) (Alt (Ref R_ANY_CONST_TYPE) (Ref R_SCOPED_NAME)) (* 184 *)
  | R_ANY_CONST_TYPE => Ref R_KW_ANY (* 185 *)
  | R_ANNOTATION_APPL => Seq (Lit "@") (Seq (Ref R_SCOPED_NAME) (Opt (Seq (Ref R_OPEN_PARENTHESES) (Seq (Ref R_ANNOTATION_APPL_PARAMS) (Ref R_CLOSE_PARENTHESES))))) (* 186 *)
  | R_ANNOTATION_APPL_PARAMS => Alt (Seq (Ref R_ANNOTATION_APPL_PARAM) (Star (Seq (Ref R_COMMA) (Ref R_ANNOTATION_APPL_PARAM)))) (Ref R_ANNOTATION_APPL_PARAM) (* 187 *)
  | R_ANNOTATION_APPL_PARAM => Alt (Seq (Ref R_IDENTIFIER) (Seq (Ref R_EQUAL_OP) (Ref R_CONST_EXPR))) (Ref R_CONST_EXPR) (* 188 *)
  | R_BOOLEAN_LITERAL => Tok (Alt (Lit "TRUE") (Lit "FALSE")) (* 191 *)
  | R_INTEGER_LITERAL => Tok (Alt (Ref R_OCT_LITERAL) (Alt (Ref R_HEX_LITERAL) (Ref R_DEC_LITERAL))) (* 192 *)
  | R_DEC_LITERAL => Alt (Seq (Cls [("1"%char, "9"%char)]) (Star (Ref R_DECIMAL_DIGIT))) (Lit "0") (* 193 *)
  | R_OCT_LITERAL => Seq (Lit "0") (Plus (Ref R_OCTAL_DIGIT)) (* 194 *)
  | R_HEX_LITERAL => Seq (Lit "0") (Seq (Cls [("x"%char, "x"%char); ("X"%char, "X"%char)]) (Plus (Ref R_HEX_DIGIT))) (* 195 *)
  | R_CHAR_LITERAL => Alt (Tok (Seq (Lit "'") (Seq (Plus (Seq (Not (Cls [(""""%char, """"%char); ("'"%char, "'"%char); (""""%char, """"%char); ("\"%char, "\"%char)])) Any)) (Lit "'")))) (Seq (Lit "'") (Seq (Ref R_ESCAPE_SEQUENCE) (Lit "'"))) (* 196 *)
  | R_WIDE_CHAR_LITERAL => Tok (Seq (Lit "L") (Ref R_CHAR_LITERAL)) (* 197 *)
  | R_STRING_LITERAL => Plus (Ref R_SUBSTRING_LITERAL) (* 199 *)
  | R_SUBSTRING_LITERAL => Seq (Tok (Alt (Seq (Lit """") (Seq (Star (Alt (Ref R_ESCAPE_SEQUENCE) (Seq (Not (Cls [(""""%char, """"%char); ("\"%char, "\"%char)])) Any))) (Lit """"))) (Seq (Lit "'") (Seq (Star (Alt (Ref R_ESCAPE_SEQUENCE) (Seq (Not (Cls [("'"%char, "'"%char); ("\"%char, "\"%char)])) Any))) (Lit "'"))))) (Ref R_STRING_WS) (* 200 *)
  | R_STRING_WS => Alt (Seq (Lit """") (Seq (Opt (Ref R_WS)) (Lit """"))) (Opt (Ref R_WS)) (* 201 *)
  | R_WIDE_STRING_LITERAL => Plus (Seq (Lit "L") (Ref R_WIDE_SUBSTRING_LITERAL)) (* 202 *)
  | R_WIDE_SUBSTRING_LITERAL => Tok (Ref R_SUBSTRING_LITERAL) (* 203 *)
  | R_FLOAT_LITERAL => Tok (Alt (Seq (Plus (Ref R_DECIMAL_DIGIT)) (Seq (Lit ".") (Seq (Star (Ref R_DECIMAL_DIGIT)) (Opt (Ref R_EXP_OR_SUFFIX))))) (Alt (Seq (Lit ".") (Seq (Plus (Ref R_DECIMAL_DIGIT)) (Opt (Ref R_EXP_OR_SUFFIX)))) (Seq (Plus (Ref R_DECIMAL_DIGIT)) (Ref R_EXP_OR_SUFFIX)))) (* 204-208 *)
  | R_FIXED_PT_LITERAL => Tok (Ref R_FLOAT_LITERAL) (* 209 *)
  | R_EXP_OR_SUFFIX => Alt (Ref R_EXPONENT) (Ref R_FLOAT_TYPE_SUFFIX) (* 211 *)
  | R_EXPONENT => Tok (Seq (Cls [("e"%char, "e"%char); ("E"%char, "E"%char)]) (Seq (Opt (Cls [("-"%char, "-"%char); ("+"%char, "+"%char)])) (Plus (Ref R_DECIMAL_DIGIT)))) (* 212 *)
  | R_FLOAT_TYPE_SUFFIX => Cls [("d"%char, "d"%char); ("D"%char, "D"%char)] (* 213 *)
  | R_ESCAPE_SEQUENCE => Alt (Ref R_ES_NEW_LINE) (Alt (Ref R_ES_H_TAB) (Alt (Ref R_ES_V_TAB) (Alt (Ref R_ES_BACKSPACE) (Alt (Ref R_ES_CARRIAGE_RETURN) (Alt (Ref R_ES_FORM_FEED) (Alt (Ref R_ES_ALERT) (Alt (Ref R_ES_BACKSLASH) (Alt (Ref R_ES_QUESTION_MARK) (Alt (Ref R_ES_SINGLE_QUOTE) (Alt (Ref R_ES_DOUBLE_QUOTE) (Alt (Ref R_ES_OCTAL) (Alt (Ref R_ES_HEX) (Ref R_ES_UNICODE))))))))))))) (* 216-229 *)
  | R_ES_NEW_LINE => Lit "\n" (* 231 *)
  | R_ES_H_TAB => Lit "\t" (* 232 *)
  | R_ES_V_TAB => Lit "\v" (* 233 *)
  | R_ES_BACKSPACE => Lit "\b" (* 234 *)
  | R_ES_CARRIAGE_RETURN => Lit "\r" (* 235 *)
  | R_ES_FORM_FEED => Lit "\f" (* 236 *)
  | R_ES_ALERT => Lit "\a" (* 237 *)
  | R_ES_BACKSLASH => Lit "\\" (* 238 *)
  | R_ES_QUESTION_MARK => Lit "\?" (* 239 *)
  | R_ES_SINGLE_QUOTE => Lit "\'" (* 240 *)
  | R_ES_DOUBLE_QUOTE => Lit "\""" (* 241 *)
  | R_ES_OCTAL => Seq (Lit "\") (Ref R_ES_OCTAL_NUMBER) (* 242 *)
  | R_ES_HEX => Seq (Lit "\x") (Ref R_ES_HEX_NUMBER) (* 243 *)
  | R_ES_UNICODE => Seq (Lit "\u") (Ref R_ES_UNICODE_CHAR) (* 244 *)
  | R_ES_OCTAL_NUMBER => Seq (Ref R_OCTAL_DIGIT) (Seq (Opt (Ref R_OCTAL_DIGIT)) (Opt (Ref R_OCTAL_DIGIT))) (* 245 *)
  | R_ES_HEX_NUMBER => Seq (Ref R_HEX_DIGIT) (Opt (Ref R_HEX_DIGIT)) (* 246 *)
  | R_ES_UNICODE_CHAR => Seq (Ref R_HEX_DIGIT) (Seq (Opt (Ref R_HEX_DIGIT)) (Seq (Opt (Ref R_HEX_DIGIT)) (Opt (Ref R_HEX_DIGIT)))) (* 247 *)
  | R_END_KW => Not (Ref R_IDENTIFIER) (* 250 *)
  | R_KW_CONST => Seq (Opt (Ref R_WS)) (Seq (Tok (Lit "const")) (Seq (Ref R_END_KW) (Opt (Ref R_WS)))) (* 252 *)
  | R_KW_MODULE => Seq (Opt (Ref R_WS)) (Seq (Tok (Lit "module")) (Seq (Ref R_END_KW) (Opt (Ref R_WS)))) (* 253 *)
  | R_KW_SEQUENCE => Seq (Opt (Ref R_WS)) (Seq (Tok (Lit "sequence")) (Seq (Ref R_END_KW) (Opt (Ref R_WS)))) (* 254 *)
  | R_KW_STRING => Seq (Opt (Ref R_WS)) (Seq (Tok (Lit "string")) (Seq (Ref R_END_KW) (Opt (Ref R_WS)))) (* 255 *)
  | R_KW_WSTRING => Seq (Opt (Ref R_WS)) (Seq (Tok (Lit "wstring")) (Seq (Ref R_END_KW) (Opt (Ref R_WS)))) (* 256 *)
  | R_KW_FIXED => Seq (Opt (Ref R_WS)) (Seq (Tok (Lit "fixed")) (Seq (Ref R_END_KW) (Opt (Ref R_WS)))) (* 257 *)
  | R_KW_UNION => Seq (Opt (Ref R_WS)) (Seq (Tok (Lit "union")) (Seq (Ref R_END_KW) (Opt (Ref R_WS)))) (* 258 *)
  | R_KW_STRUCT => Seq (Opt (Ref R_WS)) (Seq (Tok (Lit "struct")) (Seq (Ref R_END_KW) (Opt (Ref R_WS)))) (* 259 *)
  | R_KW_ENUM => Seq (Opt (Ref R_WS)) (Seq (Tok (Lit "enum")) (Seq (Ref R_END_KW) (Opt (Ref R_WS)))) (* 260 *)
  | R_KW_SWITCH => Seq (Opt (Ref R_WS)) (Seq (Tok (Lit "switch")) (Seq (Ref R_END_KW) (Opt (Ref R_WS)))) (* 261 *)
  | R_KW_CASE => Seq (Opt (Ref R_WS)) (Seq (Tok (Lit "case")) (Seq (Ref R_END_KW) (Opt (Ref R_WS)))) (* 262 *)
  | R_KW_DEFAULT => Seq (Opt (Ref R_WS)) (Seq (Tok (Lit "default")) (Seq (Ref R_END_KW) (Opt (Ref R_WS)))) (* 263 *)
  | R_KW_NATIVE => Seq (Opt (Ref R_WS)) (Seq (Tok (Lit "native")) (Seq (Ref R_END_KW) (Opt (Ref R_WS)))) (* 264 *)
  | R_KW_TYPEDEF => Seq (Opt (Ref R_WS)) (Seq (Tok (Lit "typedef")) (Seq (Ref R_END_KW) (Opt (Ref R_WS)))) (* 265 *)
  | R_KW_ANY => Seq (Opt (Ref R_WS)) (Seq (Tok (Lit "any")) (Seq (Ref R_END_KW) (Opt (Ref R_WS)))) (* 266 *)
  | R_KW_MAP => Seq (Opt (Ref R_WS)) (Seq (Tok (Lit "map")) (Seq (Ref R_END_KW) (Opt (Ref R_WS)))) (* 267 *)
  | R_KW_BITSET => Seq (Opt (Ref R_WS)) (Seq (Tok (Lit "bitset")) (Seq (Ref R_END_KW) (Opt (Ref R_WS)))) (* 268 *)
  | R_KW_BITFIELD => Seq (Opt (Ref R_WS)) (Seq (Tok (Lit "bitfield")) (Seq (Ref R_END_KW) (Opt (Ref R_WS)))) (* 269 *)
  | R_KW_BITMASK => Seq (Opt (Ref R_WS)) (Seq (Tok (Lit "bitmask")) (Seq (Ref R_END_KW) (Opt (Ref R_WS)))) (* 270 *)
  | R_KW_ANNOTATION => Seq (Opt (Ref R_WS)) (Seq (Tok (Lit "@annotation")) (Seq (Ref R_END_KW) (Opt (Ref R_WS)))) (* 271 *)
  | R_KW_SHORT => Seq (Opt (Ref R_WS)) (Seq (Tok (Lit "short")) (Seq (Ref R_END_KW) (Opt (Ref R_WS)))) (* 272 *)
  | R_KW_INT16 => Seq (Opt (Ref R_WS)) (Seq (Tok (Lit "int16")) (Seq (Ref R_END_KW) (Opt (Ref R_WS)))) (* 273 *)
  | R_KW_LONG => Seq (Opt (Ref R_WS)) (Seq (Tok (Lit "long")) (Seq (Ref R_END_KW) (Opt (Ref R_WS)))) (* 274 *)
  | R_KW_LONG_LONG => Seq (Opt (Ref R_WS)) (Seq (Tok (Seq (Lit "long") (Seq (Ref R_WS) (Lit "long")))) (Seq (Ref R_END_KW) (Opt (Ref R_WS)))) (* 275 *)
  | R_KW_INT32 => Seq (Opt (Ref R_WS)) (Seq (Tok (Lit "int32")) (Seq (Ref R_END_KW) (Opt (Ref R_WS)))) (* 276 *)
  | R_KW_INT64 => Seq (Opt (Ref R_WS)) (Seq (Tok (Lit "int64")) (Seq (Ref R_END_KW) (Opt (Ref R_WS)))) (* 277 *)
  | R_KW_UNSIGNED_LONG => Seq (Opt (Ref R_WS)) (Seq (Tok (Seq (Lit "unsigned") (Seq (Ref R_WS) (Lit "long")))) (Seq (Ref R_END_KW) (Opt (Ref R_WS)))) (* 278 *)
  | R_KW_UNSIGNED_LONG_LONG => Seq (Opt (Ref R_WS)) (Seq (Tok (Seq (Lit "unsigned") (Seq (Ref R_WS) (Seq (Lit "long") (Seq (Ref R_WS) (Lit "long")))))) (Seq (Ref R_END_KW) (Opt (Ref R_WS)))) (* 279 *)
  | R_KW_UNSIGNED_SHORT => Seq (Opt (Ref R_WS)) (Seq (Tok (Seq (Lit "unsigned") (Seq (Ref R_WS) (Lit "short")))) (Seq (Ref R_END_KW) (Opt (Ref R_WS)))) (* 280 *)
  | R_KW_UINT16 => Seq (Opt (Ref R_WS)) (Seq (Tok (Lit "uint16")) (Seq (Ref R_END_KW) (Opt (Ref R_WS)))) (* 281 *)
  | R_KW_UINT32 => Seq (Opt (Ref R_WS)) (Seq (Tok (Lit "uint32")) (Seq (Ref R_END_KW) (Opt (Ref R_WS)))) (* 282 *)
  | R_KW_UINT64 => Seq (Opt (Ref R_WS)) (Seq (Tok (Lit "uint64")) (Seq (Ref R_END_KW) (Opt (Ref R_WS)))) (* 283 *)
  | R_KW_INT8 => Seq (Opt (Ref R_WS)) (Seq (Tok (Lit "int8")) (Seq (Ref R_END_KW) (Opt (Ref R_WS)))) (* 284 *)
  | R_KW_UINT8 => Seq (Opt (Ref R_WS)) (Seq (Tok (Lit "uint8")) (Seq (Ref R_END_KW) (Opt (Ref R_WS)))) (* 285 *)
  | R_KW_CHAR => Seq (Opt (Ref R_WS)) (Seq (Tok (Lit "char")) (Seq (Ref R_END_KW) (Opt (Ref R_WS)))) (* 286 *)
  | R_KW_WCHAR => Seq (Opt (Ref R_WS)) (Seq (Tok (Lit "wchar")) (Seq (Ref R_END_KW) (Opt (Ref R_WS)))) (* 287 *)
  | R_KW_BOOLEAN => Seq (Opt (Ref R_WS)) (Seq (Tok (Lit "boolean")) (Seq (Ref R_END_KW) (Opt (Ref R_WS)))) (* 288 *)
  | R_KW_OCTET => Seq (Opt (Ref R_WS)) (Seq (Tok (Lit "octet")) (Seq (Ref R_END_KW) (Opt (Ref R_WS)))) (* 289 *)
  | R_KW_FLOAT => Seq (Opt (Ref R_WS)) (Seq (Tok (Lit "float")) (Seq (Ref R_END_KW) (Opt (Ref R_WS)))) (* 290 *)
  | R_KW_DOUBLE => Seq (Opt (Ref R_WS)) (Seq (Tok (Lit "double")) (Seq (Ref R_END_KW) (Opt (Ref R_WS)))) (* 291 *)
  | R_KW_LONG_DOUBLE => Seq (Opt (Ref R_WS)) (Seq (Tok (Seq (Lit "long") (Seq (Ref R_WS) (Lit "double")))) (Seq (Ref R_END_KW) (Opt (Ref R_WS)))) (* 292 *)
  | R_KW_LINE_COMMENT => Tok (Lit "//") (* 293 *)
  | R_KW_OPEN_BLOCK_COMMENT => Tok (Lit "/*") (* 294 *)
  | R_KW_CLOSE_BLOCK_COMMENT => Tok (Lit "*/") (* 295 *)
  | R_WS => Alt (Ref R_COMMENT) (Plus (Cls [(" "%char, " "%char); ("009"%char, "009"%char); ("013"%char, "013"%char); ("010"%char, "010"%char)])) (* 297 *)
  | R_SEMICOLON => Seq (Opt (Ref R_WS)) (Seq (Tok (Lit ";")) (Opt (Ref R_WS))) (* 298 *)
  | R_COLON => Seq (Opt (Ref R_WS)) (Seq (Tok (Lit ":")) (Opt (Ref R_WS))) (* 299 *)
  | R_DOUBLE_COLON => Lit "::" (* 300 *)
  | R_COMMA => Seq (Opt (Ref R_WS)) (Seq (Tok (Lit ",")) (Opt (Ref R_WS))) (* 301 *)
  | R_OPEN_PARENTHESES => Seq (Opt (Ref R_WS)) (Seq (Tok (Lit "(")) (Opt (Ref R_WS))) (* 303 *)
  | R_CLOSE_PARENTHESES => Seq (Opt (Ref R_WS)) (Seq (Tok (Lit ")")) (Opt (Ref R_WS))) (* 304 *)
  | R_OPEN_BRACKET => Seq (Opt (Ref R_WS)) (Seq (Tok (Lit "[")) (Opt (Ref R_WS))) (* 305 *)
  | R_CLOSE_BRACKET => Seq (Opt (Ref R_WS)) (Seq (Tok (Lit "]")) (Opt (Ref R_WS))) (* 306 *)
  | R_OPEN_ANG_BRACKET => Seq (Opt (Ref R_WS)) (Seq (Tok (Lit "<")) (Opt (Ref R_WS))) (* 307 *)
  | R_CLOSE_ANG_BRACKET => Seq (Opt (Ref R_WS)) (Seq (Tok (Lit ">")) (Opt (Ref R_WS))) (* 308 *)
  | R_OPEN_BRACE => Seq (Opt (Ref R_WS)) (Seq (Tok (Lit "{")) (Opt (Ref R_WS))) (* 309 *)
  | R_CLOSE_BRACE => Seq (Opt (Ref R_WS)) (Seq (Tok (Lit "}")) (Opt (Ref R_WS))) (* 310 *)
  | R_EQUAL_OP => Seq (Opt (Ref R_WS)) (Seq (Tok (Lit "=")) (Opt (Ref R_WS))) (* 312 *)
  | R_OR_OP => Seq (Opt (Ref R_WS)) (Seq (Tok (Lit "|")) (Opt (Ref R_WS))) (* 313 *)
  | R_XOR_OP => Seq (Opt (Ref R_WS)) (Seq (Tok (Lit "^")) (Opt (Ref R_WS))) (* 314 *)
  | R_AND_OP => Seq (Opt (Ref R_WS)) (Seq (Tok (Lit "&")) (Opt (Ref R_WS))) (* 315 *)
  | R_LSHIFT_OP => Seq (Opt (Ref R_WS)) (Seq (Tok (Lit "<<")) (Opt (Ref R_WS))) (* 316 *)
  | R_RSHIFT_OP => Seq (Opt (Ref R_WS)) (Seq (Tok (Lit ">>")) (Opt (Ref R_WS))) (* 317 *)
  | R_ADD_OP => Seq (Opt (Ref R_WS)) (Seq (Tok (Lit "+")) (Opt (Ref R_WS))) (* 318 *)
  | R_SUB_OP => Seq (Opt (Ref R_WS)) (Seq (Tok (Lit "-")) (Opt (Ref R_WS))) (* 319 *)
  | R_MULT_OP => Seq (Opt (Ref R_WS)) (Seq (Tok (Lit "*")) (Opt (Ref R_WS))) (* 320 *)
  | R_DIV_OP => Seq (Opt (Ref R_WS)) (Seq (Tok (Lit "/")) (Opt (Ref R_WS))) (* 321 *)
  | R_MOD_OP => Seq (Opt (Ref R_WS)) (Seq (Tok (Lit "%")) (Opt (Ref R_WS))) (* 322 *)
  | R_NEG_OP => Seq (Opt (Ref R_WS)) (Seq (Tok (Lit "~")) (Opt (Ref R_WS))) (* 323 *)
  | R_UNARY_OP => Alt (Ref R_SUB_OP) (Alt (Ref R_ADD_OP) (Ref R_NEG_OP)) (* 324 *)
  | R_DECIMAL_DIGIT => Cls [("0"%char, "9"%char)] (* 326 *)
  | R_OCTAL_DIGIT => Cls [("0"%char, "7"%char)] (* 327 *)
  | R_HEX_DIGIT => Cls [("0"%char, "9"%char); ("a"%char, "f"%char); ("A"%char, "F"%char)] (* 328 *)
  end.

Definition ignored (r : rule) : bool :=
  match r with
  | R_STRING_WS | R_ESCAPE_SEQUENCE | R_ES_NEW_LINE | R_ES_H_TAB | R_ES_V_TAB | R_ES_BACKSPACE | R_ES_CARRIAGE_RETURN | R_ES_FORM_FEED | R_ES_ALERT | R_ES_BACKSLASH | R_ES_QUESTION_MARK | R_ES_SINGLE_QUOTE | R_ES_DOUBLE_QUOTE | R_ES_OCTAL | R_ES_HEX | R_ES_UNICODE | R_ES_OCTAL_NUMBER | R_ES_HEX_NUMBER | R_ES_UNICODE_CHAR | R_END_KW | R_KW_CONST | R_KW_MODULE | R_KW_SEQUENCE | R_KW_STRING | R_KW_WSTRING | R_KW_FIXED | R_KW_UNION | R_KW_STRUCT | R_KW_ENUM | R_KW_SWITCH | R_KW_CASE | R_KW_DEFAULT | R_KW_NATIVE | R_KW_TYPEDEF | R_KW_ANY | R_KW_MAP | R_KW_BITSET | R_KW_BITFIELD | R_KW_BITMASK | R_KW_ANNOTATION | R_KW_SHORT | R_KW_INT16 | R_KW_LONG | R_KW_LONG_LONG | R_KW_INT32 | R_KW_INT64 | R_KW_UNSIGNED_LONG | R_KW_UNSIGNED_LONG_LONG | R_KW_UNSIGNED_SHORT | R_KW_UINT16 | R_KW_UINT32 | R_KW_UINT64 | R_KW_INT8 | R_KW_UINT8 | R_KW_CHAR | R_KW_WCHAR | R_KW_BOOLEAN | R_KW_OCTET | R_KW_FLOAT | R_KW_DOUBLE | R_KW_LONG_DOUBLE | R_KW_LINE_COMMENT | R_KW_OPEN_BLOCK_COMMENT | R_KW_CLOSE_BLOCK_COMMENT | R_WS | R_SEMICOLON | R_COLON | R_DOUBLE_COLON | R_COMMA | R_OPEN_PARENTHESES | R_CLOSE_PARENTHESES | R_OPEN_BRACKET | R_CLOSE_BRACKET | R_OPEN_ANG_BRACKET | R_CLOSE_ANG_BRACKET | R_OPEN_BRACE | R_CLOSE_BRACE => true
  | _ => false
  end.

(** The rules whose name starts with "KW_" (parser.hpp:908-917). *)
Definition kw_rules : list rule := [R_KW_CONST; R_KW_MODULE; R_KW_SEQUENCE; R_KW_STRING; R_KW_WSTRING; R_KW_FIXED; R_KW_UNION; R_KW_STRUCT; R_KW_ENUM; R_KW_SWITCH; R_KW_CASE; R_KW_DEFAULT; R_KW_NATIVE; R_KW_TYPEDEF; R_KW_ANY; R_KW_MAP; R_KW_BITSET; R_KW_BITFIELD; R_KW_BITMASK; R_KW_ANNOTATION; R_KW_SHORT; R_KW_INT16; R_KW_LONG; R_KW_LONG_LONG; R_KW_INT32; R_KW_INT64; R_KW_UNSIGNED_LONG; R_KW_UNSIGNED_LONG_LONG; R_KW_UNSIGNED_SHORT; R_KW_UINT16; R_KW_UINT32; R_KW_UINT64; R_KW_INT8; R_KW_UINT8; R_KW_CHAR; R_KW_WCHAR; R_KW_BOOLEAN; R_KW_OCTET; R_KW_FLOAT; R_KW_DOUBLE; R_KW_LONG_DOUBLE; R_KW_LINE_COMMENT; R_KW_OPEN_BLOCK_COMMENT; R_KW_CLOSE_BLOCK_COMMENT].
