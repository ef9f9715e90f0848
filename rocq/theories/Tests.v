(** * Tests: the repository's own integration tests replayed on the model by computation.
    These are tests of the model's fidelity, not proofs of properties.  The generated part comes from
    /verif/tools/gen_tests.py. *)
From Coq Require Import String.
From Verif Require Import Str Lexer Json Ast ErrInfo Parser Render Helpers Registry.
Open Scope nat_scope. Open Scope list_scope.

Definition pe0 : penv := mkPenv (fun _ => 1) (fun _ => None) true.
Definition pl0 : plat := mkPlat pe0 (fun _ => []) (fun _ c => c_params c) (fun _ => lit "error") true.
Definition reg0 : registry := registry_new pl0.
Definition ins (n src : str) (r : registry) : registry := snd (registry_insert pl0 n src r).
Definition once (r : registry) (src : str) (d : json) : ares str := registry_once 100 pl0 r (lit "t") src d.
Definition syn (src : str) : option (serr * option str) :=
  match registry_parse pl0 (lit "t") src with
  | AErr (XSyntax e) => Some (se_kind e, Some (se_info e))
  | _ => None
  end.

(** tests/comparison.rs cmp_eq *)
Example t_cmp_eq : once reg0 (lit "{{#if (eq 1 1)}}bar{{/if}}") (JObj []) = AOk (lit "bar").
Proof. vm_compute. reflexivity. Qed.

(** tests/comparison.rs cmp_ne *)
Example t_cmp_ne : once reg0 (lit "{{#if (ne 1 2)}}bar{{/if}}") (JObj []) = AOk (lit "bar").
Proof. vm_compute. reflexivity. Qed.

(** tests/comparison.rs cmp_gt *)
Example t_cmp_gt : once reg0 (lit "{{#if (gt 2 1)}}bar{{/if}}") (JObj []) = AOk (lit "bar").
Proof. vm_compute. reflexivity. Qed.

(** tests/comparison.rs cmp_gte *)
Example t_cmp_gte : once reg0 (lit "{{#if (gte 2 2)}}bar{{/if}}") (JObj []) = AOk (lit "bar").
Proof. vm_compute. reflexivity. Qed.

(** tests/comparison.rs cmp_lt *)
Example t_cmp_lt : once reg0 (lit "{{#if (lt 1 2)}}bar{{/if}}") (JObj []) = AOk (lit "bar").
Proof. vm_compute. reflexivity. Qed.

(** tests/comparison.rs cmp_lte *)
Example t_cmp_lte : once reg0 (lit "{{#if (lte 2 2)}}bar{{/if}}") (JObj []) = AOk (lit "bar").
Proof. vm_compute. reflexivity. Qed.

(** tests/conditional.rs if_block *)
Example t_if_block : once reg0 (lit "{{#if true}}{{foo}}{{/if}}") (JObj [(lit "foo", (JStr (lit "bar")))]) = AOk (lit "bar").
Proof. vm_compute. reflexivity. Qed.

(** tests/conditional.rs if_else_block *)
Example t_if_else_block : once reg0 (lit "{{#if false}}WRONG{{else}}{{foo}}{{/if}}") (JObj [(lit "foo", (JStr (lit "bar")))]) = AOk (lit "bar").
Proof. vm_compute. reflexivity. Qed.

(** tests/conditional.rs if_else_if_block *)
Example t_if_else_if_block : once reg0 (lit "{{#if false}}WRONG{{else if true}}{{foo}}{{/if}}") (JObj [(lit "foo", (JStr (lit "bar")))]) = AOk (lit "bar").
Proof. vm_compute. reflexivity. Qed.

(** tests/conditional.rs if_else_if_else_block *)
Example t_if_else_if_else_block : once reg0 (lit "{{#if false}}WRONG{{else if false}}WRONG{{else}}{{foo}}{{/if}}") (JObj [(lit "foo", (JStr (lit "bar")))]) = AOk (lit "bar").
Proof. vm_compute. reflexivity. Qed.

(** tests/conditional.rs unless_block *)
Example t_unless_block : once reg0 (lit "{{#unless false}}{{foo}}{{/unless}}") (JObj [(lit "foo", (JStr (lit "bar")))]) = AOk (lit "bar").
Proof. vm_compute. reflexivity. Qed.

(** tests/conditional.rs unless_else_block *)
Example t_unless_else_block : once reg0 (lit "{{#unless true}}WRONG{{else}}{{foo}}{{/unless}}") (JObj [(lit "foo", (JStr (lit "bar")))]) = AOk (lit "bar").
Proof. vm_compute. reflexivity. Qed.

(** tests/conditional.rs if_and_block *)
Example t_if_and_block : once reg0 (lit "{{#if (and true true)}}{{foo}}{{/if}}") (JObj [(lit "foo", (JStr (lit "bar")))]) = AOk (lit "bar").
Proof. vm_compute. reflexivity. Qed.

(** tests/conditional.rs if_or_block *)
Example t_if_or_block : once reg0 (lit "{{#if (or false true)}}{{foo}}{{/if}}") (JObj [(lit "foo", (JStr (lit "bar")))]) = AOk (lit "bar").
Proof. vm_compute. reflexivity. Qed.

(** tests/conditional.rs if_not_block *)
Example t_if_not_block : once reg0 (lit "{{#if (not false)}}{{foo}}{{/if}}") (JObj [(lit "foo", (JStr (lit "bar")))]) = AOk (lit "bar").
Proof. vm_compute. reflexivity. Qed.

(** tests/defaults.rs defaults_statement *)
Example t_defaults_statement : once reg0 (lit "foo{{qux}}bar") (JObj []) = AOk (lit "foobar").
Proof. vm_compute. reflexivity. Qed.

(** tests/defaults.rs defaults_block *)
Example t_defaults_block : once reg0 (lit "foo{{#qux}}baz{{/qux}}bar") (JObj []) = AOk (lit "foobar").
Proof. vm_compute. reflexivity. Qed.

(** tests/each.rs each_array *)
Example t_each_array : once reg0 (lit "{{#each foo}}{{this}}{{/each}}") (JObj [(lit "foo", (JArr [(JStr (lit "b")); (JStr (lit "a")); (JStr (lit "r"))]))]) = AOk (lit "bar").
Proof. vm_compute. reflexivity. Qed.

(** tests/each.rs each_array_index *)
Example t_each_array_index : once reg0 (lit "{{#each foo}}{{@index}}{{/each}}") (JObj [(lit "foo", (JArr [(JStr (lit "b")); (JStr (lit "a")); (JStr (lit "r"))]))]) = AOk (lit "012").
Proof. vm_compute. reflexivity. Qed.

(** tests/each.rs each_map *)
Example t_each_map : once reg0 (lit "{{#each foo}}{{this}}{{/each}}") (JObj [(lit "foo", (JObj [(lit "bar", (JStr (lit "baz"))); (lit "buz", (JStr (lit "qux")))]))]) = AOk (lit "bazqux").
Proof. vm_compute. reflexivity. Qed.

(** tests/each.rs each_map_key *)
Example t_each_map_key : once reg0 (lit "{{#each foo}}{{@key}}{{/each}}") (JObj [(lit "foo", (JObj [(lit "bar", (JStr (lit "baz"))); (lit "buz", (JStr (lit "qux")))]))]) = AOk (lit "barbuz").
Proof. vm_compute. reflexivity. Qed.

(** tests/link.rs link_escaped_statement *)
Example t_link_escaped_statement : once reg0 (lit "\[[/some/target]]") (JObj []) = AOk (lit "[[/some/target]]").
Proof. vm_compute. reflexivity. Qed.

(** tests/link.rs link_noop *)
Example t_link_noop : once reg0 (lit "[[/some/target]]") (JObj []) = AOk (lit "[[/some/target]]").
Proof. vm_compute. reflexivity. Qed.

(** tests/lookup.rs lookup_map *)
Example t_lookup_map : once reg0 (lit "{{lookup map 'foo'}}") (JObj [(lit "map", (JObj [(lit "foo", (JStr (lit "bar")))]))]) = AOk (lit "bar").
Proof. vm_compute. reflexivity. Qed.

(** tests/lookup.rs lookup_array *)
Example t_lookup_array : once reg0 (lit "{{lookup list '1'}}") (JObj [(lit "list", (JArr [(JStr (lit "foo")); (JStr (lit "bar")); (JStr (lit "qux"))]))]) = AOk (lit "bar").
Proof. vm_compute. reflexivity. Qed.

(** tests/lookup.rs lookup_deep *)
Example t_lookup_deep : once reg0 (lit "{{lookup foo.bar.qux 'baz'}}") (JObj [(lit "foo", (JObj [(lit "bar", (JObj [(lit "qux", (JObj [(lit "baz", (JStr (lit "bar")))]))]))]))]) = AOk (lit "bar").
Proof. vm_compute. reflexivity. Qed.

(** tests/partial.rs partial_statement *)
Example t_partial_statement : once (ins (lit "foo") (lit "{{bar}}") reg0) (lit "{{ > foo }}") (JObj [(lit "bar", (JStr (lit "qux")))]) = AOk (lit "qux").
Proof. vm_compute. reflexivity. Qed.

(** tests/partial.rs partial_sub_expr *)
Example t_partial_sub_expr : once (ins (lit "bar") (lit "{{baz}}") reg0) (lit "{{ > (foo) }}") (JObj [(lit "baz", (JStr (lit "qux"))); (lit "foo", (JStr (lit "bar")))]) = AOk (lit "qux").
Proof. vm_compute. reflexivity. Qed.

(** tests/partial.rs partial_block *)
Example t_partial_block : once (ins (lit "foo") (lit "{{> @partial-block}}") reg0) (lit "{{#>foo}}{{bar}}{{/foo}}") (JObj [(lit "bar", (JStr (lit "qux")))]) = AOk (lit "qux").
Proof. vm_compute. reflexivity. Qed.

(** tests/partial.rs partial_context *)
Example t_partial_context : once (ins (lit "foo") (lit "{{bar}}") reg0) (lit "{{ > foo ctx }}") (JObj [(lit "bar", (JStr (lit "qux"))); (lit "ctx", (JObj [(lit "bar", (JStr (lit "baz")))]))]) = AOk (lit "baz").
Proof. vm_compute. reflexivity. Qed.

(** tests/partial.rs partial_context_parameter *)
Example t_partial_context_parameter : once (ins (lit "foo") (lit "{{bar}}") reg0) (lit "{{ > foo ctx bar=""xyz""}}") (JObj [(lit "bar", (JStr (lit "qux"))); (lit "ctx", (JObj [(lit "bar", (JStr (lit "baz")))]))]) = AOk (lit "xyz").
Proof. vm_compute. reflexivity. Qed.

(** tests/raw_block.rs raw_block *)
Example t_raw_block : once reg0 (lit "{{{{raw}}}}foo {{bar}} baz{{{{/raw}}}}") (JObj []) = AOk (lit "foo {{bar}} baz").
Proof. vm_compute. reflexivity. Qed.

(** tests/raw_block.rs raw_block_multiline *)
Example t_raw_block_multiline : once reg0 (lit "some{{{{raw}}}}
foo
{{bar}}
baz{{{{/raw}}}}
text") (JObj []) = AOk (lit "some
foo
{{bar}}
baz
text").
Proof. vm_compute. reflexivity. Qed.

(** tests/render.rs render_text *)
Example t_render_text : once reg0 (lit "Some text") (JObj []) = AOk (lit "Some text").
Proof. vm_compute. reflexivity. Qed.

(** tests/render.rs render_html_comment *)
Example t_render_html_comment : once reg0 (lit "<!-- foo -->") (JObj []) = AOk (lit "<!-- foo -->").
Proof. vm_compute. reflexivity. Qed.

(** tests/render.rs render_comment *)
Example t_render_comment : once reg0 (lit "{{! simple comment }}") (JObj []) = AOk (lit "").
Proof. vm_compute. reflexivity. Qed.

(** tests/render.rs render_raw_comment *)
Example t_render_raw_comment : once reg0 (lit "{{!-- foo {{bar}} baz --}}") (JObj []) = AOk (lit "").
Proof. vm_compute. reflexivity. Qed.

(** tests/render.rs render_raw_statement *)
Example t_render_raw_statement : once reg0 (lit "\{{expr}}") (JObj []) = AOk (lit "{{expr}}").
Proof. vm_compute. reflexivity. Qed.

(** tests/render.rs render_statement *)
Example t_render_statement : once reg0 (lit "{{foo}}") (JObj [(lit "foo", (JStr (lit "bar")))]) = AOk (lit "bar").
Proof. vm_compute. reflexivity. Qed.

(** tests/trim.rs trim_statement *)
Example t_trim_statement : once reg0 (lit "
{{~foo~}}
") (JObj [(lit "foo", (JStr (lit "bar")))]) = AOk (lit "bar").
Proof. vm_compute. reflexivity. Qed.

(** tests/trim.rs trim_before_block_start *)
Example t_trim_before_block_start : once reg0 (lit "
{{~#if true}}{{foo}}{{/if}}") (JObj [(lit "foo", (JStr (lit "bar")))]) = AOk (lit "bar").
Proof. vm_compute. reflexivity. Qed.

(** tests/trim.rs trim_after_block_start *)
Example t_trim_after_block_start : once reg0 (lit "{{#if true~}}
{{foo}}{{/if}}") (JObj [(lit "foo", (JStr (lit "bar")))]) = AOk (lit "bar").
Proof. vm_compute. reflexivity. Qed.

(** tests/trim.rs trim_before_block_end *)
Example t_trim_before_block_end : once reg0 (lit "{{#if true}}{{foo}}
{{~/if}}") (JObj [(lit "foo", (JStr (lit "bar")))]) = AOk (lit "bar").
Proof. vm_compute. reflexivity. Qed.

(** tests/trim.rs trim_after_block_end *)
Example t_trim_after_block_end : once reg0 (lit "{{#if true}}{{foo}}{{/if~}}
") (JObj [(lit "foo", (JStr (lit "bar")))]) = AOk (lit "bar").
Proof. vm_compute. reflexivity. Qed.

(** tests/trim.rs trim_condition_after *)
Example t_trim_condition_after : once reg0 (lit "{{#if false}}WRONG{{else~}}
{{foo}}{{/if~}}
") (JObj [(lit "foo", (JStr (lit "bar")))]) = AOk (lit "bar").
Proof. vm_compute. reflexivity. Qed.

(** tests/trim.rs trim_condition_if *)
Example t_trim_condition_if : once reg0 (lit "{{#if true ~}}
{{foo}}
{{~else~}}
{{foo}}
{{~/if~}}
") (JObj [(lit "foo", (JStr (lit "bar")))]) = AOk (lit "bar").
Proof. vm_compute. reflexivity. Qed.

(** tests/trim.rs trim_condition_else *)
Example t_trim_condition_else : once reg0 (lit "{{#if false ~}}
{{foo}}
{{~else~}}
{{foo}}
{{~/if~}}
") (JObj [(lit "foo", (JStr (lit "bar")))]) = AOk (lit "bar").
Proof. vm_compute. reflexivity. Qed.

(** tests/trim.rs trim_raw_block_outside *)
Example t_trim_raw_block_outside : once reg0 (lit "
{{{{~raw}}}}bar{{{{/raw~}}}}
") (JObj []) = AOk (lit "bar").
Proof. vm_compute. reflexivity. Qed.

(** tests/trim.rs trim_raw_block_inside *)
Example t_trim_raw_block_inside : once reg0 (lit "{{{{raw~}}}}
bar
{{{{~/raw}}}}") (JObj []) = AOk (lit "bar").
Proof. vm_compute. reflexivity. Qed.

(** tests/vars.rs vars_simple *)
Example t_vars_simple : once reg0 (lit "{{foo}}") (JObj [(lit "foo", (JStr (lit "<bar>")))]) = AOk (lit "&lt;bar&gt;").
Proof. vm_compute. reflexivity. Qed.

(** tests/vars.rs vars_unescaped *)
Example t_vars_unescaped : once reg0 (lit "{{{foo}}}") (JObj [(lit "foo", (JStr (lit "<bar>")))]) = AOk (lit "<bar>").
Proof. vm_compute. reflexivity. Qed.

(** tests/vars.rs vars_raw *)
Example t_vars_raw : once reg0 (lit "\{{foo}}") (JObj [(lit "foo", (JStr (lit "bar")))]) = AOk (lit "{{foo}}").
Proof. vm_compute. reflexivity. Qed.

(** tests/vars.rs vars_this *)
Example t_vars_this : once reg0 (lit "{{this}}") (JStr (lit "bar")) = AOk (lit "bar").
Proof. vm_compute. reflexivity. Qed.

(** tests/vars.rs vars_this_dot_slash *)
Example t_vars_this_dot_slash : once reg0 (lit "{{./}}") (JStr (lit "bar")) = AOk (lit "bar").
Proof. vm_compute. reflexivity. Qed.

(** tests/vars.rs vars_explicit_this_path *)
Example t_vars_explicit_this_path : once reg0 (lit "{{this.foo}}") (JObj [(lit "foo", (JStr (lit "bar")))]) = AOk (lit "bar").
Proof. vm_compute. reflexivity. Qed.

(** tests/vars.rs vars_root *)
Example t_vars_root : once reg0 (lit "{{@root.foo}}") (JObj [(lit "foo", (JStr (lit "bar")))]) = AOk (lit "bar").
Proof. vm_compute. reflexivity. Qed.

(** tests/vars.rs vars_path *)
Example t_vars_path : once reg0 (lit "{{foo.bar.baz}}") (JObj [(lit "foo", (JObj [(lit "bar", (JObj [(lit "baz", (JStr (lit "qux")))]))]))]) = AOk (lit "qux").
Proof. vm_compute. reflexivity. Qed.

(** tests/vars.rs vars_parent *)
Example t_vars_parent : once reg0 (lit "{{#with baz}}{{../foo}}{{/with}}") (JObj [(lit "baz", (JStr (lit "qux"))); (lit "foo", (JStr (lit "bar")))]) = AOk (lit "bar").
Proof. vm_compute. reflexivity. Qed.

(** tests/vars.rs vars_local_index *)
Example t_vars_local_index : once reg0 (lit "{{#each this}}{{@index}}{{/each}}") (JArr [(JStr (lit "foo"))]) = AOk (lit "0").
Proof. vm_compute. reflexivity. Qed.

(** tests/vars.rs vars_local_key *)
Example t_vars_local_key : once reg0 (lit "{{#each this}}{{@key}}{{/each}}") (JObj [(lit "foo", (JStr (lit "bar")))]) = AOk (lit "foo").
Proof. vm_compute. reflexivity. Qed.

(** tests/vars.rs vars_arr_local_last *)
Example t_vars_arr_local_last : once reg0 (lit "{{#each this}}{{@last}}{{/each}}") (JArr [(JStr (lit "foo"))]) = AOk (lit "true").
Proof. vm_compute. reflexivity. Qed.

(** tests/vars.rs vars_map_local_last *)
Example t_vars_map_local_last : once reg0 (lit "{{#each this}}{{@last}}{{/each}}") (JObj [(lit "foo", (JStr (lit "bar")))]) = AOk (lit "true").
Proof. vm_compute. reflexivity. Qed.

(** tests/vars.rs vars_arr_local_first *)
Example t_vars_arr_local_first : once reg0 (lit "{{#each this}}{{@first}}{{/each}}") (JArr [(JStr (lit "foo"))]) = AOk (lit "true").
Proof. vm_compute. reflexivity. Qed.

(** tests/vars.rs vars_map_local_first *)
Example t_vars_map_local_first : once reg0 (lit "{{#each this}}{{@first}}{{/each}}") (JObj [(lit "foo", (JStr (lit "bar")))]) = AOk (lit "true").
Proof. vm_compute. reflexivity. Qed.

(** tests/vars.rs vars_array_access *)
Example t_vars_array_access : once reg0 (lit "{{this.[1]}}") (JArr [(JStr (lit "foo")); (JStr (lit "bar")); (JStr (lit "baz"))]) = AOk (lit "bar").
Proof. vm_compute. reflexivity. Qed.

(** tests/vars.rs vars_scope *)
Example t_vars_scope : once reg0 (lit "{{#each list}}{{title}}{{/each}}") (JObj [(lit "list", (JArr [(JObj [(lit "title", (JStr (lit "bar")))])])); (lit "title", (JStr (lit "foo")))]) = AOk (lit "bar").
Proof. vm_compute. reflexivity. Qed.

(** tests/vars.rs vars_scope_parent *)
Example t_vars_scope_parent : once reg0 (lit "{{#with item}}{{#each list}}{{title}}{{/each}}{{/with}}") (JObj [(lit "item", (JObj [(lit "title", (JStr (lit "bar")))])); (lit "list", (JArr [(JNum (PosInt 1))])); (lit "title", (JStr (lit "foo")))]) = AOk (lit "bar").
Proof. vm_compute. reflexivity. Qed.

(** tests/vars.rs vars_scope_explicit_this *)
Example t_vars_scope_explicit_this : once reg0 (lit "{{#with item}}{{this.title}}{{/with}}") (JObj [(lit "item", (JObj [(lit "title", (JStr (lit "bar")))])); (lit "title", (JStr (lit "foo")))]) = AOk (lit "bar").
Proof. vm_compute. reflexivity. Qed.

(** tests/vars.rs vars_scope_explicit_this_no_inherit *)
Example t_vars_scope_explicit_this_no_inherit : once reg0 (lit "{{#with item}}{{this.title}}{{/with}}") (JObj [(lit "item", (JObj [])); (lit "title", (JStr (lit "foo")))]) = AOk (lit "").
Proof. vm_compute. reflexivity. Qed.

(** tests/lexer.rs lex_text_only *)
Example t_lex_text_only : collect (lit "foo bar baz") true = Some [Tok (TBlock BText) 0 11].
Proof. vm_compute. reflexivity. Qed.

(** tests/lexer.rs lex_double_quote_string *)
Example t_lex_double_quote_string : collect (lit "{{""foo""}}") true = Some [Tok (TBlock BStartStatement) 0 2; Tok (TParam KDoubleQuote) 2 3; Tok (TDouble QText) 3 6; Tok (TDouble QEnd) 6 7; Tok (TParam KEnd) 7 9].
Proof. vm_compute. reflexivity. Qed.

(** tests/lexer.rs lex_single_quote_string *)
Example t_lex_single_quote_string : collect (lit "{{'foo'}}") true = Some [Tok (TBlock BStartStatement) 0 2; Tok (TParam KSingleQuote) 2 3; Tok (TSingle QText) 3 6; Tok (TSingle QEnd) 6 7; Tok (TParam KEnd) 7 9].
Proof. vm_compute. reflexivity. Qed.

(** tests/lexer.rs lex_array_string *)
Example t_lex_array_string : collect (lit "{{this.[1]}}") true = Some [Tok (TBlock BStartStatement) 0 2; Tok (TParam KThis) 2 6; Tok (TParam KPathDelim) 6 7; Tok (TParam KStartArray) 7 8; Tok (TArray QText) 8 9; Tok (TArray QEnd) 9 10; Tok (TParam KEnd) 10 12].
Proof. vm_compute. reflexivity. Qed.

(** tests/lexer.rs lex_block_text *)
Example t_lex_block_text : collect (lit "foo {{bar}} baz") true = Some [Tok (TBlock BText) 0 4; Tok (TBlock BStartStatement) 4 6; Tok (TParam KIdent) 6 9; Tok (TParam KEnd) 9 11; Tok (TBlock BText) 11 15].
Proof. vm_compute. reflexivity. Qed.

(** tests/lexer.rs lex_raw_block_text *)
Example t_lex_raw_block_text : collect (lit "{{{{ raw }}}}foo {{bar}} baz{{{{ / raw }}}}") true = Some [Tok (TBlock BStartRawBlock) 0 5; Tok (TParam KIdent) 5 8; Tok (TParam KWhiteSpace) 8 9; Tok (TParam KEnd) 9 13; Tok (TBlock BText) 13 17; Tok (TBlock BStartStatement) 17 19; Tok (TParam KIdent) 19 22; Tok (TParam KEnd) 22 24; Tok (TBlock BText) 24 28; Tok (TBlock BEndRawBlock) 28 34; Tok (TParam KWhiteSpace) 34 35; Tok (TParam KIdent) 35 38; Tok (TParam KWhiteSpace) 38 39; Tok (TParam KEnd) 39 43].
Proof. vm_compute. reflexivity. Qed.

(** tests/lexer.rs lex_raw_block_multiline *)
Example t_lex_raw_block_multiline : collect (lit "{{{{raw}}}}
foo
{{bar}}
baz
{{{{/raw}}}}
") true = Some [Tok (TBlock BStartRawBlock) 0 4; Tok (TParam KIdent) 4 7; Tok (TParam KEnd) 7 11; Tok (TBlock BText) 11 16; Tok (TBlock BStartStatement) 16 18; Tok (TParam KIdent) 18 21; Tok (TParam KEnd) 21 23; Tok (TBlock BText) 23 28; Tok (TBlock BEndRawBlock) 28 33; Tok (TParam KIdent) 33 36; Tok (TParam KEnd) 36 40; Tok (TBlock BText) 40 41].
Proof. vm_compute. reflexivity. Qed.

(** tests/lexer.rs lex_raw_comment *)
Example t_lex_raw_comment : collect (lit "{{!-- foo {{bar}} baz --}}") true = Some [Tok (TBlock BStartRawComment) 0 5; Tok (TBlock BText) 5 22; Tok (TRawComment PEnd) 22 26].
Proof. vm_compute. reflexivity. Qed.

(** tests/lexer.rs lex_raw_comment_multiline *)
Example t_lex_raw_comment_multiline : collect (lit "{{!--
foo
{{bar}}
baz
--}}") true = Some [Tok (TBlock BStartRawComment) 0 5; Tok (TBlock BText) 5 22; Tok (TRawComment PEnd) 22 26].
Proof. vm_compute. reflexivity. Qed.

(** tests/lexer.rs lex_comment *)
Example t_lex_comment : collect (lit "{{! foo }}") true = Some [Tok (TBlock BStartComment) 0 3; Tok (TBlock BText) 3 8; Tok (TComment PEnd) 8 10].
Proof. vm_compute. reflexivity. Qed.

(** tests/lexer.rs lex_comment_multiline *)
Example t_lex_comment_multiline : collect (lit "{{!
foo
bar
baz
}}") true = Some [Tok (TBlock BStartComment) 0 3; Tok (TBlock BText) 3 16; Tok (TComment PEnd) 16 18].
Proof. vm_compute. reflexivity. Qed.

(** tests/lexer.rs lex_raw_statement *)
Example t_lex_raw_statement : collect (lit "\{{foo}}") true = Some [Tok (TBlock BStartRawStatement) 0 3; Tok (TBlock BText) 3 6; Tok (TRawStatement PEnd) 6 8].
Proof. vm_compute. reflexivity. Qed.

(** tests/lexer.rs lex_raw_statement_partial *)
Example t_lex_raw_statement_partial : collect (lit "\{{> foo}}") true = Some [Tok (TBlock BStartRawStatement) 0 3; Tok (TBlock BText) 3 8; Tok (TRawStatement PEnd) 8 10].
Proof. vm_compute. reflexivity. Qed.

(** tests/lexer.rs lex_statement_identifier *)
Example t_lex_statement_identifier : collect (lit "{{foo}}") true = Some [Tok (TBlock BStartStatement) 0 2; Tok (TParam KIdent) 2 5; Tok (TParam KEnd) 5 7].
Proof. vm_compute. reflexivity. Qed.

(** tests/lexer.rs lex_statement_partial *)
Example t_lex_statement_partial : collect (lit "{{> foo}}") true = Some [Tok (TBlock BStartStatement) 0 2; Tok (TParam KPartial) 2 3; Tok (TParam KWhiteSpace) 3 4; Tok (TParam KIdent) 4 7; Tok (TParam KEnd) 7 9].
Proof. vm_compute. reflexivity. Qed.

(** tests/lexer.rs lex_statement_path *)
Example t_lex_statement_path : collect (lit "{{foo.bar.baz}}") true = Some [Tok (TBlock BStartStatement) 0 2; Tok (TParam KIdent) 2 5; Tok (TParam KPathDelim) 5 6; Tok (TParam KIdent) 6 9; Tok (TParam KPathDelim) 9 10; Tok (TParam KIdent) 10 13; Tok (TParam KEnd) 13 15].
Proof. vm_compute. reflexivity. Qed.

(** tests/lexer.rs lex_statement_parent_path *)
Example t_lex_statement_parent_path : collect (lit "{{../../foo}}") true = Some [Tok (TBlock BStartStatement) 0 2; Tok (TParam KParentRef) 2 5; Tok (TParam KParentRef) 5 8; Tok (TParam KIdent) 8 11; Tok (TParam KEnd) 11 13].
Proof. vm_compute. reflexivity. Qed.

(** tests/lexer.rs lex_statement_root_path *)
Example t_lex_statement_root_path : collect (lit "{{@root/foo}}") true = Some [Tok (TBlock BStartStatement) 0 2; Tok (TParam KLocalIdent) 2 7; Tok (TParam KPathDelim) 7 8; Tok (TParam KIdent) 8 11; Tok (TParam KEnd) 11 13].
Proof. vm_compute. reflexivity. Qed.

(** tests/lexer.rs lex_statement_sub_expr *)
Example t_lex_statement_sub_expr : collect (lit "{{foo (lookup a b)}}") true = Some [Tok (TBlock BStartStatement) 0 2; Tok (TParam KIdent) 2 5; Tok (TParam KWhiteSpace) 5 6; Tok (TParam KStartSub) 6 7; Tok (TParam KIdent) 7 13; Tok (TParam KWhiteSpace) 13 14; Tok (TParam KIdent) 14 15; Tok (TParam KWhiteSpace) 15 16; Tok (TParam KIdent) 16 17; Tok (TParam KEndSub) 17 18; Tok (TParam KEnd) 18 20].
Proof. vm_compute. reflexivity. Qed.

(** tests/lexer.rs lex_block_scope *)
Example t_lex_block_scope : collect (lit "{{#foo}}bar {{baz}} qux{{/foo}}") true = Some [Tok (TBlock BStartBlockScope) 0 3; Tok (TParam KIdent) 3 6; Tok (TParam KEnd) 6 8; Tok (TBlock BText) 8 12; Tok (TBlock BStartStatement) 12 14; Tok (TParam KIdent) 14 17; Tok (TParam KEnd) 17 19; Tok (TBlock BText) 19 23; Tok (TBlock BEndBlockScope) 23 26; Tok (TParam KIdent) 26 29; Tok (TParam KEnd) 29 31].
Proof. vm_compute. reflexivity. Qed.

(** tests/lexer.rs lex_block_scope_partial *)
Example t_lex_block_scope_partial : collect (lit "{{#>foo}}{{@partial-block}}{{/foo}}") true = Some [Tok (TBlock BStartBlockScope) 0 3; Tok (TParam KPartial) 3 4; Tok (TParam KIdent) 4 7; Tok (TParam KEnd) 7 9; Tok (TBlock BStartStatement) 9 11; Tok (TParam KLocalIdent) 11 25; Tok (TParam KEnd) 25 27; Tok (TBlock BEndBlockScope) 27 30; Tok (TParam KIdent) 30 33; Tok (TParam KEnd) 33 35].
Proof. vm_compute. reflexivity. Qed.

(** tests/lexer.rs lex_link *)
Example t_lex_link : collect (lit "[[/foo/bar|label]]") true = Some [Tok (TBlock BStartLink) 0 2; Tok (TLink LText) 2 10; Tok (TLink LPipe) 10 11; Tok (TLink LText) 11 16; Tok (TLink LEnd) 16 18].
Proof. vm_compute. reflexivity. Qed.

(** tests/syntax_error.rs syntax_err_empty_statement *)
Example t_syntax_err_empty_statement : syn (lit "{{}}") = Some (SExpectedIdentifier, err_info (fun _ => 1) (lit "t") (lit "{{}}") 0 2 []).
Proof. vm_compute. reflexivity. Qed.

(** tests/syntax_error.rs syntax_err_identifier_expected *)
Example t_syntax_err_identifier_expected : syn (lit "{{# }}") = Some (SExpectedIdentifier, err_info (fun _ => 1) (lit "t") (lit "{{# }}") 0 4 []).
Proof. vm_compute. reflexivity. Qed.

(** tests/syntax_error.rs syntax_err_block_name *)
Example t_syntax_err_block_name : syn (lit "{{# foo.bar}}") = Some (SBlockName, err_info (fun _ => 1) (lit "t") (lit "{{# foo.bar}}") 0 4 []).
Proof. vm_compute. reflexivity. Qed.

(** tests/syntax_error.rs syntax_err_literal_newline_double *)
Example t_syntax_err_literal_newline_double : syn (lit "{{ foo.""bar
qux"" }}") = Some (SLiteralNewline, err_info (fun _ => 1) (lit "t") (lit "{{ foo.""bar
qux"" }}") 0 10 []).
Proof. vm_compute. reflexivity. Qed.

(** tests/syntax_error.rs syntax_err_literal_newline_single *)
Example t_syntax_err_literal_newline_single : syn (lit "{{ foo.'bar
qux' }}") = Some (SLiteralNewline, err_info (fun _ => 1) (lit "t") (lit "{{ foo.'bar
qux' }}") 0 10 []).
Proof. vm_compute. reflexivity. Qed.

(** tests/syntax_error.rs syntax_err_literal_newline_array *)
Example t_syntax_err_literal_newline_array : syn (lit "{{ foo.[bar
qux] }}") = Some (SLiteralNewline, err_info (fun _ => 1) (lit "t") (lit "{{ foo.[bar
qux] }}") 0 10 []).
Proof. vm_compute. reflexivity. Qed.

(** tests/syntax_error.rs syntax_err_sub_expr *)
Example t_syntax_err_sub_expr : syn (lit "{{#> (foo}}") = Some (SSubExpressionNotTerminated, err_info (fun _ => 1) (lit "t") (lit "{{#> (foo}}") 0 9 []).
Proof. vm_compute. reflexivity. Qed.

(** tests/syntax_error.rs syntax_err_link *)
Example t_syntax_err_link : syn (lit "[[SomeLink|Page") = Some (SLinkNotTerminated, err_info (fun _ => 1) (lit "t") (lit "[[SomeLink|Page") 0 14 []).
Proof. vm_compute. reflexivity. Qed.

(** tests/syntax_error.rs syntax_err_raw_block_open *)
Example t_syntax_err_raw_block_open : syn (lit "{{{{raw") = Some (SRawBlockOpenNotTerminated, err_info (fun _ => 1) (lit "t") (lit "{{{{raw") 0 4 []).
Proof. vm_compute. reflexivity. Qed.

(** tests/syntax_error.rs syntax_err_raw_block_close *)
Example t_syntax_err_raw_block_close : syn (lit "{{{{raw}}}}foo{{{{/raw") = Some (SRawBlockNotTerminated, err_info (fun _ => 1) (lit "t") (lit "{{{{raw}}}}foo{{{{/raw") 0 19 []).
Proof. vm_compute. reflexivity. Qed.

(** tests/syntax_error.rs syntax_err_raw_block_half_open *)
Example t_syntax_err_raw_block_half_open : syn (lit "{{{{raw}}}}foo") = Some (SRawBlockNotTerminated, err_info (fun _ => 1) (lit "t") (lit "{{{{raw}}}}foo") 0 13 []).
Proof. vm_compute. reflexivity. Qed.


(** ** Hand-written: tests that define helpers *)
Definition h_foo : helper := fun _ _ => HRet (Some (JStr (lit "bar"))).
Definition h_block : helper := fun _ t =>
  HRegister (lit "foo") h_foo
    (match t with
     | Some t => HTemplate t (htry (fun _ => HUnregister (lit "foo") (HRet None)))
     | None => HUnregister (lit "foo") (HRet None)
     end).
Definition h_missing : helper := fun _ _ => HWrite (lit "bar") false (htry (fun _ => HRet None)).
Definition h_block_missing : helper := fun c _ =>
  match hc_property c with
  | Some (_, JStr s) => HWrite s false (htry (fun _ => HRet None))
  | _ => HPanic
  end.
Definition h_eval : helper := fun _ _ => HEval (lit "@root.foo") (htry (fun v => HRet v)).
Definition h_raw : helper := fun c _ =>
  match hc_text c with Some s => HWrite s false (htry (fun _ => HRet None)) | None => HRet None end.
Definition h_link : helper := fun c _ =>
  with_arity c 3 3 (htry (fun a => htry (fun b => htry (fun d =>
    match a, b, d with
    | JStr href, JStr label, JStr title =>
        let label := match label with [] => href | _ => label end in
        let title := match title with [] => label | _ => title end in
        HWrite (lit "<a href=""" ++ html href ++ lit """ title=""" ++ html title ++ lit """>" ++ html label
                ++ lit "</a>") false (htry (fun _ => HRet None))
    | _, _, _ => HPanic
    end) (ctx_try_get c 2 [TyString])) (ctx_try_get c 1 [TyString])) (ctx_try_get c 0 [TyString])).

Definition jfoo (s : string) : json := JObj [(lit "foo", JStr (lit s))].
(** tests/helper.rs *)
Example t_helper_value : once (helper_insert (lit "foo") h_foo reg0) (lit "{{foo}}") (jfoo "qux") = AOk (lit "bar").
Proof. vm_compute. reflexivity. Qed.
Example t_helper_this : once (helper_insert (lit "foo") h_foo reg0) (lit "{{this.foo}}") (jfoo "qux") = AOk (lit "qux").
Proof. vm_compute. reflexivity. Qed.
Example t_helper_dot : once (helper_insert (lit "foo") h_foo reg0) (lit "{{./foo}}") (jfoo "qux") = AOk (lit "qux").
Proof. vm_compute. reflexivity. Qed.
Example t_helper_block :
  once (helper_insert (lit "block") h_block reg0) (lit "{{#block}}{{foo}}{{/block}}") (jfoo "qux") = AOk (lit "bar").
Proof. vm_compute. reflexivity. Qed.
Example t_helper_missing : once (set_missing (Some h_missing) reg0) (lit "{{baz}}") (JObj []) = AOk (lit "bar").
Proof. vm_compute. reflexivity. Qed.
Example t_block_helper_missing :
  once (set_block_missing (Some h_block_missing) reg0) (lit "{{#block}}{{foo}}{{/block}}")
    (JObj [(lit "block", JStr (lit "bar"))]) = AOk (lit "bar").
Proof. vm_compute. reflexivity. Qed.
(** tests/evaluate.rs, tests/raw_block.rs *)
Example t_eval : once (helper_insert (lit "eval") h_eval reg0) (lit "{{eval}}") (jfoo "bar") = AOk (lit "bar").
Proof. vm_compute. reflexivity. Qed.
Example t_raw_helper :
  once (helper_insert (lit "raw-helper") h_raw reg0) (lit "{{{{raw-helper}}}}foo{{{{/raw-helper}}}}") (JObj [])
  = AOk (lit "foo").
Proof. vm_compute. reflexivity. Qed.
(** tests/defaults.rs strict *)
Example t_strict_stmt : once (set_strict true reg0) (lit "foo{{qux}}bar") (JObj [])
  = AErr (XRender (EVariableNotFound (lit "qux") (lit "t"))).
Proof. vm_compute. reflexivity. Qed.
Example t_strict_block : once (set_strict true reg0) (lit "foo{{#qux}}baz{{/qux}}bar") (JObj [])
  = AErr (XRender (EHelperNotFound (lit "qux"))).
Proof. vm_compute. reflexivity. Qed.
(** tests/link.rs *)
Definition regl := set_link (Some h_link) reg0.
Example t_link_href : once regl (lit "[[SomeTarget|Label & Info|Title Label]]") (JObj [])
  = AOk (lit "<a href=""SomeTarget"" title=""Title Label"">Label &amp; Info</a>").
Proof. vm_compute. reflexivity. Qed.
Example t_link_pipe : once regl (lit "[[Some\|Target|Label & Info]]") (JObj [])
  = AOk (lit "<a href=""Some|Target"" title=""Label &amp; Info"">Label &amp; Info</a>").
Proof. vm_compute. reflexivity. Qed.
Example t_link_pipe_label : once regl (lit "[[Some\|Target|Label\|Info]]") (JObj [])
  = AOk (lit "<a href=""Some|Target"" title=""Label|Info"">Label|Info</a>").
Proof. vm_compute. reflexivity. Qed.
Example t_link_bracket : once regl (lit "[[Some\]Target|Label & Info]]") (JObj [])
  = AOk (lit "<a href=""Some]Target"" title=""Label &amp; Info"">Label &amp; Info</a>").
Proof. vm_compute. reflexivity. Qed.
Example t_link_bracket_label : once regl (lit "[[Some\]Target|Label\]Info]]") (JObj [])
  = AOk (lit "<a href=""Some]Target"" title=""Label]Info"">Label]Info</a>").
Proof. vm_compute. reflexivity. Qed.
Example t_link_newline : once regl (lit "[[Some\nTarget|Label & Info]]") (JObj [])
  = AOk (lit "<a href=""Some" ++ [10%N] ++ lit "Target"" title=""Label &amp; Info"">Label &amp; Info</a>").
Proof. vm_compute. reflexivity. Qed.
Example t_link_newline_label : once regl (lit "[[Some\nTarget|Label\nInfo]]") (JObj [])
  = AOk (lit "<a href=""Some" ++ [10%N] ++ lit "Target"" title=""Label" ++ [10%N] ++ lit "Info"">Label"
         ++ [10%N] ++ lit "Info</a>").
Proof. vm_compute. reflexivity. Qed.

(** ** Parsing: tests/slice.rs, tests/lines.rs, tests/parser.rs *)
Definition nodes_of (src : str) : option (list node) :=
  match compile pe0 (mkOpts (lit "t") 0 0) src with POk (NDoc ns) _ => Some ns | _ => None end.
Definition strs (src : str) : option (list (option str)) :=
  match nodes_of src with Some ns => Some (map (node_str src) ns) | None => None end.
Definition whole (s : string) : bool :=
  match strs (lit s) with Some [Some x] => streq x (lit s) | _ => false end.
Example t_slices : forallb whole
  ["{{foo}}"; "{{{foo}}}"; "{{~foo~}}"; "{{#if true}}{{foo}}{{/if}}"; "{{{{raw}}}}{{foo}}{{{{/raw}}}}"; "{{!foo}}";
   "{{!-- foo --}}"]%string = true.
Proof. vm_compute. reflexivity. Qed.
Example t_slice_interspersed :
  strs (lit "bar {{foo}} qux") = Some [Some (lit "bar "); Some (lit "{{foo}}"); Some (lit " qux")].
Proof. vm_compute. reflexivity. Qed.
Definition path1 (s : string) : option str :=
  match nodes_of (lit s) with
  | Some [NStmt c] => match c_target c with TPath p => path_str (lit s) p | _ => None end
  | _ => None
  end.
Example t_slice_paths :
  map path1 ["{{foo}}"; "{{foo.bar.qux}}"; "{{@root.foo}}"; "{{../../../foo/bar.txt}}"]%string
  = map Some [lit "foo"; lit "foo.bar.qux"; lit "@root.foo"; lit "../../../foo/bar.txt"].
Proof. vm_compute. reflexivity. Qed.
Definition lines_of (src : str) : option (list span) :=
  match nodes_of src with
  | Some ns => Some (map (fun n => match n with
                                   | NText t => tx_line t
                                   | NStmt c => c_line c
                                   | NBlock b => b_line b
                                   | NRawStmt t | NRawComment t | NComment t => tx_line (tb_text t)
                                   | _ => (0, 0)
                                   end) ns)
  | None => None
  end.
Example t_lines_text : lines_of (lit "This is some text
that spans multiple lines
so we can check the line range.") = Some [(0, 3)].
Proof. vm_compute. reflexivity. Qed.
Example t_lines_comment : lines_of (lit "{{!
This is a comment that spans multiple lines.
}}") = Some [(0, 3)].
Proof. vm_compute. reflexivity. Qed.
Example t_lines_raw_comment : lines_of (lit "{{!--
This is a raw comment that spans multiple lines.
--}}") = Some [(0, 3)].
Proof. vm_compute. reflexivity. Qed.
Example t_lines_call_single : lines_of (lit "{{
foo.bar.qux
}}") = Some [(0, 3)].
Proof. vm_compute. reflexivity. Qed.
Example t_lines_call_multi : lines_of (lit "{{
foo
""message""
true
}}") = Some [(0, 5)].
Proof. vm_compute. reflexivity. Qed.
Example t_lines_raw_block : lines_of (lit "{{{{raw}}}}
This is some text in a raw block.
{{{{/raw}}}}") = Some [(0, 3)].
Proof. vm_compute. reflexivity. Qed.
Example t_lines_block : lines_of (lit "{{#block}}
This is some text in a block statement.

If can have other {{foo}} statements.
{{/block}}") = Some [(0, 5)].
Proof. vm_compute. reflexivity. Qed.
Definition args1 (s : string) : option (list json) :=
  match nodes_of (lit s) with
  | Some [NStmt c] => Some (map (fun p => match p with VJson v _ _ => v | _ => JNull end) (c_args c))
  | _ => None
  end.
Example t_args : args1 "{{foo ""bar"" true false null 10 -10}}"
  = Some [JStr (lit "bar"); JBool true; JBool false; JNull; JNum (PosInt 10); JNum (NegInt (-10))].
Proof. vm_compute. reflexivity. Qed.
