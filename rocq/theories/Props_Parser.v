(** * Props_Parser: theorems about src/parser, src/error and the compile/lint entry points (C05-C17).
    Statements and witnesses only; proofs in DocFacts, DocProps, ErrFacts. *)
From Coq Require Import String Lia.
From Verif Require Import Str Lexer Json Ast ErrInfo Parser Render Registry Tests Spec_Lexer Spec_Ast
  StrFacts LexerFacts ParserFacts CallFacts ArgFacts LeafFacts TreeFacts BlockFacts DocFacts ErrFacts DocProps.
Open Scope nat_scope. Open Scope list_scope.

Definition opts0 : popts := mkOpts (lit "t") 0 0.
(** a template used as a witness below: text, a statement, nested blocks with else branches, a raw block, comments,
    a link and an escaped statement, on several lines *)
Definition sample : str := lit "Hi {{name}}
{{#if a}}x{{else if b}}y{{#each c}}z{{/each}}{{else}}w{{/if}}{{! c }}
{{{{raw x}}}} {{not}} {{{{/raw}}}}[[h|l]]\{{v}}".
Definition sample_node : node := match compile pe0 opts0 sample with POk n _ => n | _ => NDoc [] end.
Example sample_compiles : exists fs, compile pe0 opts0 sample = POk sample_node fs.
Proof. eexists. vm_compute. reflexivity. Qed.
Example sample_shape : length (node_leaves sample_node) = 12 /\ length (node_blocks false sample_node) = 5.
Proof. vm_compute. split; reflexivity. Qed.

(** ** C05: compilation terminates.  [PFuel]/[AFuel] is the model's "did not finish"; it is never the answer. *)
Theorem C05_compile_terminates : forall env o src, compile env o src <> PFuel.
Proof. exact compile_total. Qed.
Print Assumptions C05_compile_terminates.
Theorem C05_entry_points_terminate : forall pl name src r,
  registry_parse pl name src <> AFuel /\ fst (registry_insert pl name src r) <> AFuel /\ registry_lint pl name src <> AFuel.
Proof.
  intros pl name src r. unfold registry_parse, registry_insert, registry_lint, template_compile.
  pose proof (compile_total (pl_penv pl) (mkOpts name 0 0) src) as H1. destruct (lint_total (pl_penv pl) name src) as [H2 _].
  destruct (compile _ _ _); try contradiction; destruct (lint _ _ _); try contradiction; repeat split; discriminate.
Qed.
Print Assumptions C05_entry_points_terminate.

(** ** C07: spans.  All spans of the tree are ordered, inside the source and on character boundaries, except two
    groups the code gets wrong: the label and title of a link and the close span of an {{else}} branch. *)
Theorem C07_spans_valid_partial : forall env o src n fs, compile env o src = POk n fs ->
  Forall (valid_span src) (tree_spans n) /\ Forall (fun oc => snd (fst oc) <= fst (snd oc)) (tree_tags n).
Proof. exact compile_spans. Qed.
Print Assumptions C07_spans_valid_partial.
Example C07_nonvacuous : length (tree_spans sample_node) = 56 /\ length (tree_tags sample_node) = 14.
Proof. vm_compute. split; reflexivity. Qed.
Lemma valid_read src l : Forall (valid_span src) l ->
  forallb (fun sp => match sl src sp with Some _ => true | None => false end) l = true.
Proof.
  intros H. apply forallb_forall. intros sp Hin. rewrite Forall_forall in H. destruct (H _ Hin) as (H1 & H2 & H3).
  unfold sl. destruct (slice_some src (fst sp) (snd sp)) as [m ->]; [exact H1 | exact H2 | exact H3 | reflexivity].
Qed.
(** The full claim fails: an empty link label is recorded as the reversed span (4,2). *)
Theorem C07_link_label_refuted : exists src n fs,
  compile pe0 opts0 src = POk n fs /\ ~ Forall (valid_span src) (link_label_spans n).
Proof.
  exists (lit "[[a|]]"). eexists. eexists. split; [vm_compute; reflexivity|].
  intros H. vm_compute in H. inversion H as [|? ? (_ & _ & H1) _]; subst. vm_compute in H1. lia.
Qed.
Print Assumptions C07_link_label_refuted.
(** ... and a multibyte character before a second {{else}} puts the first branch's close span inside a character. *)
Theorem C07_branch_close_refuted : exists src n fs,
  compile pe0 opts0 src = POk n fs /\ ~ Forall (valid_span src) (branch_close_spans n).
Proof.
  exists (lit "{{#if a}}{{else if b}}" ++ [233%N] ++ lit "{{else}}{{/if}}"). eexists. eexists. split; [vm_compute; reflexivity|].
  intros H. apply valid_read in H. vm_compute in H. discriminate H.
Qed.
Print Assumptions C07_branch_close_refuted.

(** ** C08: open and close tags.  Every block of a compiled template is closed, by a tag with the same name. *)
Theorem C08_block_tags_agree : forall env o src n fs b,
  compile env o src = POk n fs -> In (false, b) (node_blocks false n) -> b_raw b = false ->
  exists toks name cl, lex src = Some toks /\ b_close b = Some cl
    /\ tag_named src toks BStartBlockScope (fst (b_open b)) name
    /\ tag_named src toks BEndBlockScope (fst cl) name.
Proof.
  intros env o src n fs b H Hin Hr. destruct (compile_blocks _ _ _ _ _ _ H Hin) as (toks & Hl & _ & Hf).
  rewrite Hr in Hf. destruct Hf as [(name & cl & H1 & H2 & H3) _]. exists toks, name, cl. repeat split; assumption.
Qed.
Print Assumptions C08_block_tags_agree.
(** For a raw block: the closing tag, read by the parser as a call, has a target with the same text as the opening
    tag's target.  (The last conjunct ties this call to the recorded closing tag.) *)
Theorem C08_raw_block_tags_agree : forall env o src n fs b,
  compile env o src = POk n fs -> In (false, b) (node_blocks false n) -> b_raw b = true ->
  exists toks name cl, lex src = Some toks /\ b_close b = Some cl
    /\ target_str src (c_target (b_call b)) = Some name
    /\ exists cx l1 o st e st', px_src cx = src /\ toks = l1 ++ o :: p_toks st /\ t_kind o = TBlock BEndRawBlock
       /\ t_start o = fst cl /\ call_parse cx (tspan o) st = POk e st' /\ target_str src (c_target e) = Some name
       /\ option_map snd (c_close e) = Some (snd cl).
Proof.
  intros env o src n fs b H Hin Hr. destruct (compile_blocks _ _ _ _ _ _ H Hin) as (toks & Hl & _ & Hf).
  rewrite Hr in Hf. destruct Hf as [_ (name & cl & H1 & H2 & H3)]. exists toks, name, cl. repeat split; assumption.
Qed.
Print Assumptions C08_raw_block_tags_agree.
Example C08_nonvacuous : map (fun fb : bool * block => (fst fb, b_raw (snd fb))) (node_blocks false sample_node)
  = [(false, false); (true, false); (false, false); (true, false); (false, true)].
Proof. vm_compute. reflexivity. Qed.

(** ** C09: the direct children of a block fill the space between its tags in source order, and the body and branches
    are exactly what cutting them at the {{else}} statements gives; branches have no branches of their own. *)
Theorem C09_conditional_structure : forall env o src n fs b,
  compile env o src = POk n fs -> In (false, b) (node_blocks false n) -> b_raw b = false ->
  exists items, block_children src b items.
Proof.
  intros env o src n fs b H Hin Hr. destruct (compile_blocks _ _ _ _ _ _ H Hin) as (toks & Hl & _ & Hf).
  rewrite Hr in Hf. apply Hf.
Qed.
Print Assumptions C09_conditional_structure.
Theorem C09_raw_block_content : forall env o src n fs b,
  compile env o src = POk n fs -> In (false, b) (node_blocks false n) -> b_raw b = true -> raw_children b.
Proof.
  intros env o src n fs b H Hin Hr. destruct (compile_blocks _ _ _ _ _ _ H Hin) as (toks & Hl & _ & Hf).
  rewrite Hr in Hf. apply Hf.
Qed.
Print Assumptions C09_raw_block_content.

(** ** C10: panics.  Compilation can only panic while formatting an error report, on a number serde_json rejects, or,
    with overflow checks, on too many parent references; and then for the stated reason. *)
Theorem C10_panic_reasons_partial : forall env o src p, compile env o src = PPanic p ->
  (p = PanErrorInfo /\ exists line byte notes, err_info (pe_width env) (po_file o) src line byte notes = None)
  \/ (p = PanNumber /\ exists sp s, sl src sp = Some s /\ parse_number (pe_num env) s = None)
  \/ (p = PanParents /\ pe_checked env = true).
Proof.
  intros env o src p H. pose proof (compile_panic_src _ _ _ _ H) as Hr.
  destruct (compile_panics _ _ _ _ H) as [->|[->| ->]]; simpl in Hr; [left|right; left|right; right]; split; auto.
Qed.
Print Assumptions C10_panic_reasons_partial.
Theorem C10_lint_panics_partial : forall env name src p, lint env name src = PPanic p ->
  p = PanErrorInfo \/ p = PanNumber \/ p = PanParents.
Proof. exact lint_panics. Qed.
Print Assumptions C10_lint_panics_partial.
(** The full claim fails in each of these ways. *)
Theorem C10_no_panic_refuted :
  compile pe0 opts0 (lit "[[") = PPanic PanErrorInfo
  /\ compile pe0 opts0 ([233%N] ++ lit "{{}}") = PPanic PanErrorInfo
  /\ compile pe0 opts0 (lit "{{foo 007}}") = PPanic PanNumber
  /\ compile pe0 opts0 (lit "{{" ++ concat (repeat (lit "../") 256) ++ lit "a}}") = PPanic PanParents.
Proof. vm_compute. repeat split. Qed.
Print Assumptions C10_no_panic_refuted.

(** ** C11: a syntax error carries the report for the line and byte the parser had reached; on an ASCII source this
    report quotes the line of the source that contains that byte, gives its column and puts the caret under it.
    Missing: positions on a newline or at the end of the source, where the code panics (see C10), and lines directly
    after a newline at byte 0, which the code does not find. *)
Theorem C11_report_position : forall env o src e fs, compile env o src = PErr e fs ->
  exists notes, err_info (pe_width env) (po_file o) src (p_line (f_p fs)) (p_byte (f_p fs)) notes = Some (se_info e).
Proof. exact compile_src. Qed.
Print Assumptions C11_report_position.
Theorem C11_report_text_partial : forall env o src e fs col text,
  compile env o src = PErr e fs ->
  (forall c, (c < 128)%N -> pe_width env c = 1) -> line_at src (p_byte (f_p fs)) col text ->
  exists notes, se_info e = report_lines (po_file o) (p_line (f_p fs)) col text notes.
Proof.
  intros env o src e fs col text H Hw Hl. destruct (compile_src _ _ _ _ _ H) as (notes & Hn).
  destruct (err_info_line (pe_width env) (po_file o) src (p_line (f_p fs)) _ _ _ notes Hw Hl) as (tail & Ht & _).
  exists tail. congruence.
Qed.
Print Assumptions C11_report_text_partial.
Example C11_nonvacuous : exists e fs, compile pe0 opts0 (lit "ab
cd {{#if a}}x{{/each}} e
f") = PErr e fs /\ line_at (lit "ab
cd {{#if a}}x{{/each}} e
f") (p_byte (f_p fs)) 21 (lit "cd {{#if a}}x{{/each}} e").
Proof.
  eexists. eexists. split; [vm_compute; reflexivity|].
  exists (lit "ab
"), (lit "cd {{#if a}}x{{/each"), 125%N, (lit "} e"), (lit "
f").
  split; [reflexivity|]. split; [reflexivity|]. split; [reflexivity|]. split; [reflexivity|].
  split; [intros H; apply (fun l => existsb_exists (N.eqb 10) l) in H || idtac|].
  { vm_compute in H. repeat destruct H as [H|H]; try discriminate H; exact H. }
  split; [right; exists (lit "ab"); split; [discriminate | reflexivity]|].
  split; [right; eexists; reflexivity|].
  repeat (constructor; [reflexivity|]). constructor.
Qed.
(** The full claim fails: an error on the line after a leading newline is reported one column too far to the right and
    with the newline as part of the line. *)
Theorem C11_leading_newline_refuted : exists e fs notes, compile pe0 opts0 (lit "
{{}}") = PErr e fs /\ p_byte (f_p fs) = 3 /\ p_line (f_p fs) = 1
  /\ se_info e = report_lines (lit "t") 1 4 (lit "
{{}}") notes.
Proof. eexists. eexists. exists []. split; [vm_compute; reflexivity|]. vm_compute. repeat split. Qed.
Print Assumptions C11_leading_newline_refuted.

(** ** C12: lint agrees with compile *)
Theorem C12_lint_agrees_with_compile : forall env name src,
  match compile env (mkOpts name 0 0) src with
  | POk _ _ => exists fs, lint env name src = POk [] fs
  | PErr e _ => (exists more fs, lint env name src = POk (e :: more) fs) \/ (exists p, lint env name src = PPanic p)
  | PPanic p => lint env name src = PPanic p
  | PFuel => False
  end.
Proof. exact lint_compile. Qed.
Print Assumptions C12_lint_agrees_with_compile.
Theorem C12_lint_clean_iff_compiles : forall pl name src,
  registry_lint pl name src = AOk [] <-> exists t, registry_parse pl name src = AOk t.
Proof.
  intros pl name src. pose proof (lint_compile (pl_penv pl) name src) as H.
  unfold registry_lint, registry_parse, template_compile.
  destruct (compile _ _ _) as [n fs|e fs|p|].
  - destruct H as [fs' ->]. split; intros _; [eexists; reflexivity | reflexivity].
  - split; [|intros [t E]; discriminate E].
    destruct H as [(more & fs' & ->)|(p & ->)]; discriminate.
  - rewrite H. split; [discriminate | intros [t E]; discriminate E].
  - destruct H.
Qed.
Print Assumptions C12_lint_clean_iff_compiles.
Example C12_nonvacuous : exists e1 e2, registry_lint pl0 (lit "t") (lit "{{/if}} {{ok}} {{foo..bar}}") = AOk [e1; e2].
Proof. vm_compute. do 2 eexists. reflexivity. Qed.

(** ** C15: the top-level nodes follow each other without gaps from byte 0 up to the end of the source or up to a token
    at which the parser stops: a block that is never closed, a stray raw block closing tag, or a token of a tag that was
    accepted without its terminator; only after such an unterminated tag a gap is possible ([nodes_tile]). *)
Theorem C15_nodes_tile_source_partial : forall env o src ns fs, compile env o src = POk (NDoc ns) fs ->
  exists q, nodes_tile src 0 q ns
    /\ (q = blen src \/ exists toks t, lex src = Some toks /\ In t toks /\ t_start t = q
          /\ (t_kind t = TBlock BStartBlockScope \/ t_kind t = TBlock BEndRawBlock \/ kind_mode (t_kind t) <> MBlock)).
Proof. exact compile_tiles. Qed.
Print Assumptions C15_nodes_tile_source_partial.
Example C15_nonvacuous : match sample_node with NDoc ns => length ns | _ => 0 end = 9.
Proof. vm_compute. reflexivity. Qed.
(** The full claim fails in all three ways: text is dropped without an error. *)
Theorem C15_nothing_dropped_refuted :
  once reg0 (lit "{{#if true}}foo") (JObj []) = AOk []
  /\ once reg0 (lit "x{{{{/raw}}}}y") (JObj []) = AOk (lit "x")
  /\ once reg0 (lit "{{a else}} rest") (JObj [(lit "a", JStr (lit "A"))]) = AOk (lit "A").
Proof. vm_compute. repeat split. Qed.
Print Assumptions C15_nothing_dropped_refuted.

(** ** C17: lines.  When no newline is inside a link or directly after [../] or a path delimiter in a tag, every node
    starts on the line given by the newlines before it (a text node that begins with newlines may be reported up to
    one line later) and its line range ends after the line of its last byte. *)
Theorem C17_node_lines_partial : forall env o src n fs toks x, compile env o src = POk n fs -> lex src = Some toks ->
  ~ uncounted_newline toks ->
  In x (node_leaves n) \/ (exists b, In (false, b) (node_blocks false n) /\ x = NBlock b) ->
  match x with
  | NText t => po_line o + newlines_before 0 src (fst (tx_span t)) <= fst (tx_line t)
               <= po_line o + newlines_before 0 src (fst (tx_span t) + 1)
  | _ => fst (node_lines x) = po_line o + newlines_before 0 src (node_start x)
  end
  /\ forall e, node_end src x = Some e -> snd (node_lines x) = po_line o + newlines_before 0 src e + 1.
Proof. exact compile_lines. Qed.
Print Assumptions C17_node_lines_partial.
Theorem C17_final_line_partial : forall env o src ns fs toks, compile env o src = POk (NDoc ns) fs -> lex src = Some toks ->
  ~ uncounted_newline toks ->
  exists q, nodes_tile src 0 q ns /\ (q = blen src -> p_line (f_p fs) = po_line o + newlines_before 0 src (blen src)).
Proof. exact compile_last_line. Qed.
Print Assumptions C17_final_line_partial.
Example C17_nonvacuous : map node_lines (match compile pe0 opts0 (lit "a
{{#if x}}
b{{/if}}
{{! c
d }}") with POk (NDoc ns) _ => ns | _ => [] end) = [(0, 2); (1, 3); (3, 4); (3, 5)].
Proof. vm_compute. reflexivity. Qed.
(** The full claim fails: newlines in links are not counted. *)
Theorem C17_link_newline_refuted : exists n fs, compile pe0 opts0 (lit "[[a|b
c]]") = POk n fs /\ p_line (f_p fs) = 0 /\ newlines_before 0 (lit "[[a|b
c]]") 9 = 1.
Proof. eexists. eexists. split; [vm_compute; reflexivity|]. split; reflexivity. Qed.
Print Assumptions C17_link_newline_refuted.
