(** * Props_Report: mistakes are reported, not panicked about, on the sources of [Spec_Report.reportable] (C10, C70, C71). *)
From Coq Require Import Lia String.
From Verif Require Import Str Regex Lexer Json Ast ErrInfo Parser Render Registry Tests StrFacts Spec_Lexer LexerFacts ParserFacts DocFacts DocProps Props_Parser Spec_Source
  Spec_Panic Spec_Report ReportFacts Spec_Bad Props_Bad.
Open Scope nat_scope. Open Scope list_scope.

(** ** C10: on a reportable source compilation returns a template or a syntax error, and [lint] a list of errors. *)
Theorem C10_reportable_partial : forall env o src, reportable env src ->
  (exists n fs, compile env o src = POk n fs) \/ (exists e fs, compile env o src = PErr e fs).
Proof.
  intros env o src H. pose proof (C05_compile_terminates env o src) as Hf. destruct (compile env o src) as [n fs|e fs|p|] eqn:E.
  - left. now exists n, fs.
  - right. now exists e, fs.
  - exfalso. exact (compile_reportable _ _ _ _ H E).
  - congruence.
Qed.
Print Assumptions C10_reportable_partial.
Theorem C10_reportable_lint_partial : forall env name src, reportable env src -> exists errs fs, lint env name src = POk errs fs.
Proof.
  intros env name src H. destruct (lint_total env name src) as (H1 & H2). destruct (lint env name src) as [n fs|e fs|p|] eqn:E.
  - now exists n, fs.
  - exfalso. exact (H2 _ _ eq_refl).
  - exfalso. exact (lint_reportable _ _ _ _ H E).
  - congruence.
Qed.
Print Assumptions C10_reportable_lint_partial.
(** A single line of ASCII text: nothing else matters than that it does not stop right after an opening token, that its
    numbers are JSON numbers and that it has not too many parent references. *)
Theorem C10_single_line_partial : forall env o src toks, ascii src -> ~ In 10%N src -> lex src = Some toks ->
  (forall l t, toks = l ++ [t] -> is_tag_open (t_kind t) = false /\ is_body_open (t_kind t) = false) ->
  (forall t s, In t toks -> t_kind t = TParam KNumber -> slice src (t_start t) (t_end t) = Some s -> parse_number (pe_num env) s <> None) ->
  length (filter is_parent toks) <= 255 ->
  reportable env src /\ ((exists n fs, compile env o src = POk n fs) \/ (exists e fs, compile env o src = PErr e fs)).
Proof.
  intros env o src toks Ha Hn Hl Hlast Hnum Hpar. assert (H : reportable env src); [|split; [exact H|now apply C10_reportable_partial]].
  assert (Hlt : forall t, In t toks -> t_end t = length src -> exists l, toks = l ++ [t]).
  { intros t Hin E. pose proof (lex_tiles src) as (l0 & xs & H1 & H2 & _). unfold collect in H1. rewrite Hl in H1. injection H1 as <-. rewrite <- (ascii_blen src Ha) in E.
    clear -Hin E H2. revert H2. generalize 0 as p. induction toks as [|u us IH]; intros p H2; [destruct Hin|]. cbn [tiles] in H2. destruct H2 as (A & B & C).
    destruct Hin as [->|Hin].
    - destruct us as [|v vs]; [now exists []|]. exfalso. assert (X : forall zs p q, tiles p q zs -> p <= q) by (induction zs as [|x xs IHx]; intros p0 q0; cbn; [lia|]; intros (X1 & X2 & X3); specialize (IHx _ _ X3); lia).
      cbn [tiles] in C. destruct C as (C1 & C2 & C3). specialize (X _ _ _ C3). lia.
    - destruct (IH Hin _ C) as (l & ->). now exists (u :: l). }
  assert (Hends : forall t, In t toks -> t_end t <= length src).
  { intros t Hin. destruct (in_split _ _ Hin) as (l1 & l2 & E). destruct (token_chars _ _ _ _ _ Hl E) as (a & w & b & Es & H1 & H2 & _).
    rewrite <- (ascii_blen src Ha), Es, !blen_app. lia. }
  split; [exact Ha|]. intros toks' E. rewrite Hl in E. injection E as <-. repeat split.
  - intros t Hin Ho. destruct (nth_error src (t_end t)) as [c|] eqn:E.
    + exists c. split; [reflexivity|]. intros ->. apply Hn. eapply nth_error_In; exact E.
    + apply nth_error_None in E. destruct (Hlt t Hin) as (l & El); [specialize (Hends t Hin); lia|]. destruct (Hlast _ _ El) as (X & _). congruence.
  - intros t k w Hin _ Es Hw. apply Hn. destruct (in_split _ _ Hin) as (l1 & l2 & E). destruct (lex_token _ _ _ _ _ Hl E) as (a & w' & b & Es' & H1 & H2 & _).
    assert (X : slice src (t_start t) (t_end t) = Some w') by (rewrite H2, <- H1, Es'; apply slice_mid).
    rewrite X in Es. injection Es as <-. rewrite Es'. apply in_or_app. right. apply in_or_app. now left.
  - destruct (Nat.eq_dec (t_end t) (length src)) as [E|E]; [|specialize (Hends t H); lia]. destruct (Hlt t H E) as (l & El). destruct (Hlast _ _ El) as (_ & X). congruence.
  - intros s ->. apply Hn. apply in_elt.
  - intros l t -> Ek. destruct (lex_token _ _ l t [] Hl eq_refl) as (a & w & b & Es & H1 & H2 & H3). rewrite Ek in H3.
    destruct H3 as [(hi & r & lo & Ep & (_ & Hlg) & _)|(_ & X & _)]; [|discriminate X].
    rewrite firstn_app, Nat.sub_diag, firstn_O, app_nil_r, firstn_all in Hlg. cbn [kind_mode] in Ep.
    assert (Hin2 : In (r, TParam KNewline) (pats MParam)) by (rewrite Ep; apply in_elt).
    assert (r = nl) by (cbn in Hin2; repeat (destruct Hin2 as [Hin2|Hin2]; [try discriminate; injection Hin2 as <-; reflexivity|]); destruct Hin2). subst r.
    inversion Hlg as [|f c Hc X1 X2| | | | |]. apply N.eqb_eq in Hc. subst. apply Hn. apply in_or_app. right. now left.
  - exact Hnum.
  - now right.
Qed.
Print Assumptions C10_single_line_partial.

(** ** C70, C71 on these sources, with no reservation *)
Theorem C70_reported : forall pe o evs s, source_of pe evs s -> reportable pe s ->
  match verdict [] evs with
  | [] => exists n fs, compile pe o s = POk n fs
  | k :: _ => exists e fs, compile pe o s = PErr e fs /\ error_for pe (po_file o) s k e
  end.
Proof.
  intros pe o evs s H Hr. pose proof (C70_first_mistake pe o evs s H) as X. destruct (verdict [] evs); [exact X|].
  destruct X as [X|X]; [|exact X]. exfalso. exact (compile_reportable _ _ _ _ Hr X).
Qed.
Print Assumptions C70_reported.
Theorem C71_reported : forall pe name evs s, source_of pe evs s -> reportable pe s ->
  exists errs fs, lint pe name s = POk errs fs /\ Forall2 (error_for pe name s) (verdict [] evs) errs.
Proof.
  intros pe name evs s H Hr. destruct (C71_lint pe name evs s H) as [X|X]; [|exact X]. exfalso. exact (lint_reportable _ _ _ _ Hr X).
Qed.
Print Assumptions C71_reported.
(** at the registry: [once], [insert] and [lint] return *)
Theorem C10_registry_partial : forall pl fuel reg name src data p, reportable (pl_penv pl) src ->
  fst (registry_insert pl name src reg) <> APanic p
  /\ (forall q, registry_lint pl name src <> APanic q)
  /\ (registry_once fuel pl reg name src data = APanic p -> exists n fs, compile (pl_penv pl) (mkOpts name 0 0) src = POk n fs).
Proof.
  intros pl fuel reg name src data p Hr. split; [|split].
  - unfold registry_insert, template_compile. destruct (compile _ _ _) as [n fs|e fs|q|] eqn:E; cbn; try discriminate. exfalso. exact (compile_reportable _ _ _ _ Hr E).
  - intros q. unfold registry_lint. destruct (C10_reportable_lint_partial (pl_penv pl) name src Hr) as (errs & fs & ->). discriminate.
  - unfold registry_once, template_compile. destruct (compile _ _ _) as [n fs|e fs|q|] eqn:E; try discriminate; [intros _; now exists n, fs|]. exfalso. exact (compile_reportable _ _ _ _ Hr E).
Qed.
Print Assumptions C10_registry_partial.

(** Sources that meet the conditions: the five mistakes of [Props_Bad], and a page of several lines with mistakes on
    them.  The conditions are close to what the code needs: dropping any of the first four lets a panic in. *)
Example C10_reportable_nonvacuous :
  reportable pe0 five_text
  /\ reportable pe0 (lit "# Title" ++ [10%N] ++ lit "{{#each items as=}}" ++ [10%N] ++ lit "{{! note }} [[a|b]] {{name (f" ++ [10%N] ++ lit " 12 ../x) 'q}}")
  /\ (exists e fs, compile pe0 opts0 (lit "# Title" ++ [10%N] ++ lit "{{#each items as=}}" ++ [10%N] ++ lit "x") = PErr e fs).
Proof.
  split; [apply reportable_check; vm_compute; reflexivity|]. split; [apply reportable_check; vm_compute; reflexivity|].
  vm_compute. now eexists _, _.
Qed.
Theorem C10_conditions_needed :
  (* not ASCII *) compile pe0 opts0 ([233%N] ++ lit "{{}}") = PPanic PanErrorInfo
  (* a newline, or nothing, after an opening token *)
  /\ compile pe0 opts0 (lit "{{" ++ [10%N] ++ lit "}}") = PPanic PanErrorInfo
  /\ compile pe0 opts0 (lit "{{f (") = PPanic PanErrorInfo
  /\ compile pe0 opts0 (lit "[[") = PPanic PanErrorInfo
  (* a newline inside a link *)
  /\ compile pe0 opts0 (lit "[[a|b" ++ [10%N]) = PPanic PanErrorInfo
  (* a comment or an escaped statement that is not closed before a final newline or the end *)
  /\ compile pe0 opts0 (lit "a{{! b" ++ [10%N]) = PPanic PanErrorInfo
  /\ compile pe0 opts0 (lit "a" ++ [10%N] ++ lit "\{{ b" ++ [10%N]) = PPanic PanErrorInfo
  (* a number that is not JSON; 256 parent references *)
  /\ compile pe0 opts0 (lit "{{foo 007}}") = PPanic PanNumber
  /\ compile pe0 opts0 (lit "{{" ++ concat (repeat (lit "../") 256) ++ lit "a}}") = PPanic PanParents.
Proof. vm_compute. repeat split. Qed.
Print Assumptions C10_conditions_needed.
