(** * Props_Offset: the line and byte offsets of the parser options (C77). *)
From Coq Require Import Lia String.
From Verif Require Import Str Lexer Json Ast ErrInfo Parser Render Helpers Registry Tests ParserFacts DocFacts DocProps Props_Parser Spec_Source Spec_Sem Props_Sem Spec_Fail FailItems Props_Fail Spec_Total Props_Total Spec_Offset OffsetFacts.
Open Scope nat_scope. Open Scope list_scope.

(** ** The line offset is added to every line number, in templates and in error reports, and changes nothing else *)
Theorem C77_line_offset : forall pe file line byte k src,
  match compile pe (mkOpts file line byte) src, compile pe (mkOpts file (line + k) byte) src with
  | POk n _, POk n' _ => n' = lower_node k n
  | PErr e _, PErr e' _ => se_kind e' = se_kind e /\ lower_error (pe_width pe) file src k e e'
  | PPanic p, PPanic q => p = q
  | _, _ => False
  end.
Proof.
  intros pe file line byte k src. pose proof (compile_off pe src file k line byte byte True (fun _ => eq_refl)) as H. pose proof (C05_compile_terminates pe (mkOpts file line byte) src) as F.
  destruct (compile pe (mkOpts file line byte) src) as [n fs|e fs|p|], (compile pe (mkOpts file (line + k) byte) src) as [n' fs'|e' fs'|q|]; cbn [moved] in H; try contradiction; try exact H.
  all: try (exact (proj1 H)); try (exact (F eq_refl)); try (destruct q; try contradiction; destruct (H I)); try (destruct p; try contradiction; destruct (H I)).
  - destruct H as (H1 & _ & H2). split; [now symmetry|exact (H2 I)].
  - now destruct p.
Qed.
Print Assumptions C77_line_offset.

(** ** The byte offset has no influence on templates nor on the kind of error *)
Lemma lower0 (l : span) : lower 0 l = l.
Proof. destruct l. unfold lower. cbn. now rewrite !Nat.add_0_r. Qed.
Lemma lower_path0 p : lower_path 0 p = p.
Proof. destruct p. unfold lower_path. cbn. rewrite lower0. now destruct (_ =? 0). Qed.
Fixpoint lower_call0 (c : call) : lower_call 0 c = c
with lower_target0 (t : target) : lower_target 0 t = t
with lower_param0 (v : param) : lower_param 0 v = v.
Proof.
  - destruct c as [p q o cl t a h l]. cbn [lower_call]. rewrite lower_target0, lower0. f_equal.
    + induction a as [|v a IH]; [reflexivity|]. cbn [map]. now rewrite lower_param0, IH.
    + induction h as [|[x v] h IH]; [reflexivity|]. cbn [map]. now rewrite lower_param0, IH.
  - destruct t as [p|c]; cbn [lower_target]; [now rewrite lower_path0|now rewrite lower_call0].
  - destruct v as [p|j sp l|c]; cbn [lower_param]; [now rewrite lower_path0|now rewrite lower0|now rewrite lower_call0].
Qed.
Lemma lower_text0 t : lower_text 0 t = t.
Proof. destruct t. unfold lower_text. cbn. now rewrite lower0. Qed.
Lemma lower_text_block0 t : lower_text_block 0 t = t.
Proof. destruct t. unfold lower_text_block. cbn. now rewrite lower_text0. Qed.
Lemma lower_link0 l : lower_link 0 l = l.
Proof. destruct l. unfold lower_link. cbn. now rewrite lower0. Qed.
Fixpoint lower_node0 (n : node) : lower_node 0 n = n
with lower_block0 (b : block) : lower_block 0 b = b.
Proof.
  - destruct n as [ns|t|c|b|t|t|t|l]; cbn [lower_node]; f_equal; try apply lower_text0; try apply lower_text_block0; try apply lower_link0; try apply lower_call0; try apply lower_block0.
    induction ns as [|m ms IH]; [reflexivity|]. cbn [map]. now rewrite lower_node0, IH.
  - destruct b as [bns br bo bcl bc bcs bl]. cbn [lower_block]. rewrite lower_call0, lower0. f_equal.
    + induction bns as [|bn bns IH]; [reflexivity|]. cbn [map]. now rewrite lower_node0, IH.
    + induction bcs as [|bn bcs IH]; [reflexivity|]. cbn [map]. now rewrite lower_node0, IH.
Qed.
Theorem C77_byte_offset_partial : forall pe file line b1 b2 src,
  match compile pe (mkOpts file line b1) src, compile pe (mkOpts file line b2) src with
  | POk n _, POk n' _ => n' = n
  | PErr e _, PErr e' _ => se_kind e' = se_kind e
  | PPanic p, PPanic q => p = q
  | PErr _ _, PPanic p | PPanic p, PErr _ _ => p = PanErrorInfo
  | _, _ => False
  end.
Proof.
  intros pe file line b1 b2 src. pose proof (compile_off pe src file 0 line b1 b2 False ltac:(intros [])) as H. rewrite Nat.add_0_r in H. pose proof (C05_compile_terminates pe (mkOpts file line b1) src) as F.
  destruct (compile pe (mkOpts file line b1) src) as [n fs|e fs|p|], (compile pe (mkOpts file line b2) src) as [n' fs'|e' fs'|q|]; cbn [moved] in H; try contradiction; try exact H.
  all: try (exact (F eq_refl)); try (now destruct q); try (now destruct p).
  - rewrite lower_node0 in H. apply H.
  - symmetry. apply H.
Qed.
Print Assumptions C77_byte_offset_partial.
(** The full claim, that reports do not depend on the byte offset, is false: the offset is taken for a position in the source,
    so a source that starts with an unclosed comment panics with the offset of the documentation (2048); with a small one the
    report shows another line. *)
Theorem C77_byte_offset_refuted :
  (exists e fs, compile pe0 (mkOpts (lit "module.rs") 12 0) (lit "{{!") = PErr e fs /\ se_kind e = SCommentNotTerminated)
  /\ compile pe0 (mkOpts (lit "module.rs") 12 2048) (lit "{{!") = PPanic PanErrorInfo
  /\ exists e fs e' fs', compile pe0 (mkOpts (lit "t") 0 0) (lit "a{{!") = PErr e fs /\ compile pe0 (mkOpts (lit "t") 0 2) (lit "a{{!") = PErr e' fs' /\ se_info e <> se_info e'.
Proof.
  split; [vm_compute; eexists _, _; split; reflexivity|]. split; [vm_compute; reflexivity|].
  vm_compute. eexists _, _, _, _. split; [reflexivity|]. split; [reflexivity|]. intros E. discriminate E.
Qed.
Print Assumptions C77_byte_offset_refuted.

(** ** Templates compiled with different options render the same *)
Theorem C77_renders_the_same : forall pl reg data docs d s name o o' te te', let w := mkWorld pl reg data docs in
  fits w -> closed w -> doc_ok (pl_penv pl) d -> doc_writes Loose d s -> Forall (regular w) d -> Forall (tame w) d ->
  template_compile pl o s = AOk te -> template_compile pl o' s = AOk te' ->
  exists N r, r <> AFuel /\ forall fuel, N <= fuel ->
    to_str (template_render fuel pl reg name (te_tpl te) data string_writer []) = r
    /\ to_str (template_render fuel pl reg name (te_tpl te') data string_writer []) = r.
Proof.
  intros pl reg data docs d s name o o' te te' w Hf Hc Hd Hs Hr Ht H1 H2.
  assert (Hw : forall h s, exists n, string_writer h s = WOk n) by (intros; eexists; reflexivity).
  destruct (C65_total w name d Hf Hc Hd Ht) as [(pb & out & H)|(out & err & H)].
  - destruct (C55_semantics pl reg data docs d s pb out name string_writer o te Hf Hd Hs Hr H Hw H1) as (N1 & G1). destruct (C55_semantics pl reg data docs d s pb out name string_writer o' te' Hf Hd Hs Hr H Hw H2) as (N2 & G2).
    exists (N1 + N2), (AOk out). split; [discriminate|]. intros fuel Hfu. destruct (G1 fuel ltac:(lia)) as (p1 & E1 & F1). destruct (G2 fuel ltac:(lia)) as (p2 & E2 & F2).
    unfold to_str. rewrite E1, E2. cbn. now rewrite F1, F2.
  - destruct (stops_run pl reg data docs d s out err name string_writer o te Hf Hd Hs Hr H Hw H1) as (N1 & G1). destruct (stops_run pl reg data docs d s out err name string_writer o' te' Hf Hd Hs Hr H Hw H2) as (N2 & G2).
    exists (N1 + N2), (answer err). split; [destruct err; discriminate|]. intros fuel Hfu. destruct (G1 fuel ltac:(lia)) as (p1 & E1 & _). destruct (G2 fuel ltac:(lia)) as (p2 & E2 & _).
    unfold to_str, template_render. rewrite E1, E2. now destruct err.
Qed.
Print Assumptions C77_renders_the_same.

(** three lines, a block and an [else]; and an error on the second line *)
Definition offset_source : str := lit "a {{b}}" ++ [10%N] ++ lit "{{#if x}}{{y z=1}}{{else}}{{! c }}" ++ [10%N] ++ lit "[[l]]{{/if}}".
Example C77_nonvacuous :
  (exists n fs fs', compile pe0 (mkOpts (lit "t") 0 0) offset_source = POk n fs /\ compile pe0 (mkOpts (lit "t") 7 2048) offset_source = POk (lower_node 7 n) fs' /\ lower_node 7 n <> n)
  /\ (exists e e' fs fs', compile pe0 (mkOpts (lit "t") 0 0) (lit "a" ++ [10%N] ++ lit "{{f g=}}") = PErr e fs /\ compile pe0 (mkOpts (lit "t") 7 2048) (lit "a" ++ [10%N] ++ lit "{{f g=}}") = PErr e' fs'
       /\ se_info e <> se_info e').
Proof.
  split.
  - vm_compute. eexists _, _, _. split; [reflexivity|]. split; [reflexivity|]. intros E. discriminate E.
  - vm_compute. eexists _, _, _, _. split; [reflexivity|]. split; [reflexivity|]. intros E. discriminate E.
Qed.
