(** * Props_Unclosed: pieces that are never closed, and raw blocks closed under another name, are reported (C82). *)
From Coq Require Import Lia String.
From Verif Require Import Str Regex Lexer Json Ast ErrInfo Parser Render Registry Tests StrFacts Spec_Lexer LexerFacts Spec_Ast ParserFacts DocFacts DocProps Props_Parser Spec_Source
  SynLayout Props_Source Props_Fail Spec_Panic Spec_Report ReportFacts Spec_Bad BadFacts BadParse BadParse2 BadTag BadEvents BadRun Props_Bad Props_Report Props_Where.
Open Scope nat_scope. Open Scope list_scope.

(** [e] is an error of kind [k] with the notes [ns], and its report is about a byte of the source [s] between [a] and [b] *)
Definition reported (pe : penv) (file s : str) (a b : nat) (k : serr) (ns : list str) (e : syntax_error) : Prop :=
  se_kind e = k /\ exists line byte, err_info (pe_width pe) file s line byte ns = Some (se_info e) /\ a <= byte < b.

Lemma mistakes_app evs : forall ss p open evs' ss', length evs = length ss ->
  mistakes p open (evs ++ evs') (ss ++ ss') = mistakes p open evs ss ++ mistakes (p + blen (concat ss)) (fold_left open_after evs open) evs' ss'.
Proof.
  induction evs as [|e evs IH]; intros [|s ss] p open evs' ss' H; try discriminate.
  - cbn. now rewrite Nat.add_0_r.
  - cbn [app mistakes concat fold_left]. rewrite (IH ss) by (cbn in H; congruence). rewrite <- app_assoc, blen_app, Nat.add_assoc. reflexivity.
Qed.
Lemma no_mistakes evs ss p open : length evs = length ss -> verdict open evs = [] -> mistakes p open evs ss = [].
Proof. intros H Hv. rewrite <- (mistakes_verdict evs p open ss H) in Hv. now destruct (mistakes p open evs ss). Qed.
Lemma pieces_split pe evs ss x y : pieces_of pe (evs ++ x) (ss ++ y) -> length x = length y -> length evs = length ss.
Proof. intros H Hl. apply pieces_length in H. rewrite !app_length in H. lia. Qed.

(** ** Pieces that are still open at the end of the source *)
(** The pieces before have no mistake (blocks may still be open): compilation fails with the error for that kind of piece,
    [lint] reports that error only, and both are about a byte of the piece.  The alternative is the known panic of the
    error report (DESIGN section 5, C10). *)
Theorem C82_unclosed : forall pe evs ss k s, pieces_of pe (evs ++ [EvUnclosed k]) (ss ++ [s]) -> verdict [] evs = [] ->
  let src := concat ss ++ s in
  (forall o, compile pe o src = PPanic PanErrorInfo
     \/ exists e fs, compile pe o src = PErr e fs /\ reported pe (po_file o) src (blen (concat ss)) (blen src) k [] e)
  /\ (forall name, lint pe name src = PPanic PanErrorInfo
     \/ exists e fs, lint pe name src = POk [e] fs /\ reported pe name src (blen (concat ss)) (blen src) k [] e).
Proof.
  intros pe evs ss k s H Hv src. pose proof (pieces_split _ _ _ _ _ H eq_refl) as Hl.
  assert (Hm : mistakes 0 [] (evs ++ [EvUnclosed k]) (ss ++ [s]) = [((k, []), (blen (concat ss), blen src))]).
  { rewrite mistakes_app, (no_mistakes _ _ _ _ Hl Hv) by exact Hl. unfold src. cbn [mistakes verdict map app Nat.add]. now rewrite blen_app. }
  assert (Es : concat (ss ++ [s]) = src) by (rewrite concat_app; cbn [concat]; now rewrite app_nil_r). split.
  - intros o. pose proof (C76_compile_partial pe _ _ o H) as X. cbv zeta in X. rewrite Hm, Es in X. destruct X as [X|(e & fs & X & Hk & line & byte & He & Hb & _)]; [now left|right].
    exists e, fs. split; [exact X|]. split; [exact Hk|]. now exists line, byte.
  - intros name. pose proof (C76_lint_partial pe _ _ name H) as X. cbv zeta in X. rewrite Hm, Es in X. destruct X as [X|(errs & fs & X & Hf)]; [now left|right].
    inversion Hf as [|? e ? es (Hk & line & byte & He & Hb & _) Hes]; subst. inversion Hes; subst. exists e, fs. split; [exact X|]. split; [exact Hk|]. now exists line, byte.
Qed.
Print Assumptions C82_unclosed.

(** ** Raw blocks closed under another name *)
(** The error has a note with the name of the opening tag.  [lint] goes on after the raw block. *)
Theorem C82_raw_name : forall pe evs ss o0 s evs' ss', pieces_of pe (evs ++ EvRaw o0 :: evs') (ss ++ s :: ss') -> length evs = length ss -> verdict [] evs = [] ->
  let src := concat (ss ++ s :: ss') in let a := blen (concat ss) in let b := a + blen s in let note := [lit "opening name is '" ++ o0 ++ lit "'"] in
  (forall o, compile pe o src = PPanic PanErrorInfo
     \/ exists e fs, compile pe o src = PErr e fs /\ reported pe (po_file o) src a b STagNameMismatch note e)
  /\ (forall name, lint pe name src = PPanic PanErrorInfo
     \/ exists e errs fs, lint pe name src = POk (e :: errs) fs /\ reported pe name src a b STagNameMismatch note e
          /\ Forall2 (error_for pe name src) (verdict (fold_left open_after evs []) evs') errs).
Proof.
  intros pe evs ss o0 s evs' ss' H Hl Hv src a b note.
  assert (Hl' : length evs' = length ss') by (apply pieces_length in H; rewrite !app_length in H; cbn [length] in H; lia).
  assert (Hm : mistakes 0 [] (evs ++ EvRaw o0 :: evs') (ss ++ s :: ss') = ((STagNameMismatch, note), (a, b)) :: mistakes b (fold_left open_after evs []) evs' ss').
  { rewrite mistakes_app, (no_mistakes _ _ _ _ Hl Hv) by exact Hl. reflexivity. }
  split.
  - intros o. pose proof (C76_compile_partial pe _ _ o H) as X. cbv zeta in X. rewrite Hm in X. destruct X as [X|(e & fs & X & Hk & line & byte & He & Hb & _)]; [now left|right].
    exists e, fs. split; [exact X|]. split; [exact Hk|]. now exists line, byte.
  - intros name. pose proof (C76_lint_partial pe _ _ name H) as X. cbv zeta in X. rewrite Hm in X. destruct X as [X|(errs & fs & X & Hf)]; [now left|right].
    inversion Hf as [|? e ? es (Hk & line & byte & He & Hb & _) Hes]; subst. exists e, es, fs. split; [exact X|]. split; [split; [exact Hk|now exists line, byte]|].
    rewrite <- (mistakes_verdict evs' b (fold_left open_after evs []) ss' Hl'). clear -Hes. induction Hes as [|x e xs es Hx _ IH]; [constructor|]. constructor; [|exact IH]. eapply located_error, Hx.
Qed.
Print Assumptions C82_raw_name.

(** ** At the registry *)
(** A source that meets the conditions of C10 for reports: no panic, the template is refused and the registry unchanged. *)
Theorem C82_registry : forall pl fuel reg name data evs ss k s, pieces_of (pl_penv pl) (evs ++ [EvUnclosed k]) (ss ++ [s]) -> verdict [] evs = [] ->
  let src := concat ss ++ s in reportable (pl_penv pl) src ->
  exists e, reported (pl_penv pl) name src (blen (concat ss)) (blen src) k [] e
    /\ registry_once fuel pl reg name src data = AErr (XSyntax e)
    /\ registry_insert pl name src reg = (AErr (XSyntax e), reg)
    /\ exists e', registry_lint pl name src = AOk [XSyntax e'] /\ reported (pl_penv pl) name src (blen (concat ss)) (blen src) k [] e'.
Proof.
  intros pl fuel reg name data evs ss k s H Hv src Hr. destruct (C82_unclosed _ _ _ _ _ H Hv) as (Hc & Hlt). fold src in Hc, Hlt.
  destruct (Hc (mkOpts name 0 0)) as [X|(e & fs & X & He)]; [exfalso; exact (compile_reportable _ _ _ _ Hr X)|].
  destruct (Hlt name) as [Y|(e' & fs' & Y & He')]; [exfalso; exact (lint_reportable _ _ _ _ Hr Y)|].
  exists e. split; [exact He|]. unfold registry_once, registry_insert, template_compile, registry_lint. rewrite X, Y. split; [reflexivity|]. split; [reflexivity|]. exists e'. split; [reflexivity|exact He'].
Qed.
Print Assumptions C82_registry.

(** ** Concrete sources *)
Definition hello : callx := Call (HdName (lit "raw")) [] [] [].
Lemma hello_open : tag_writes Loose "{{{{" nt [] false hello "}}}}" (lit "{{{{raw}}}}").
Proof.
  exists (lit "{{{{"), [], (lit "raw"), (lit "}}}}"). split; [reflexivity|]. split.
  - exists [], []. split; [reflexivity|split; gap_side].
  - split; [reflexivity|]. split; [|exists []; split; [reflexivity|gap_side]]. apply (w_call' Loose _ _ _ _ [] []); [constructor|constructor|reflexivity].
Qed.
Lemma hello_text : raw_text pe0 (lit " b {{c}}").
Proof.
  exists [IText (lit " b "); ICall false nt false (Call (HdName (lit "c")) [] [] [])]. split; [|split].
  - apply okL_text; [ok_side|intro; ok_side|intro; ok_side|reflexivity|]. apply okL_tag; [reflexivity|ok_item|constructor].
  - exists [lit " b "; lit "{{c}}"]. split; [|reflexivity]. constructor; [constructor|]. constructor; [|constructor]. apply canon_item; [ok_item|reflexivity].
  - ok_side.
Qed.
(** one piece of each kind, at the end, after a text and an open block *)
Definition before : list event := [EvItem (IText (lit "a ")); EvOpen false (Call (HdName (lit "if")) [] [EPath (HdName (lit "x")) []] []) nt].
Definition before_parts : list str := [lit "a "; lit "{{#if x}}"].
Lemma before_writes : Forall2 (event_writes pe0) before before_parts.
Proof.
  constructor; [|constructor; [|constructor]].
  - apply ew_item; [reflexivity|apply okI_text; ok_side|constructor].
  - apply ew_open; [ok_side|apply last_b; reflexivity|]. eapply (plain_call _ _ _ (lit "if x")); [|cbn; tauto|reflexivity].
    apply (w_call' Loose _ _ _ _ [32%N; 120%N] []); [|constructor|reflexivity]. apply (w_args' Loose _ _ [32%N] (lit "x") []); [gap_side|now apply w_path'|constructor|reflexivity].
Qed.
Lemma after_before e es s ss : is_text_event e = false -> (is_unclosed e = true -> es = []) -> events_ok true es -> event_writes pe0 e s -> Forall2 (event_writes pe0) es ss ->
  pieces_of pe0 (before ++ e :: es) (before_parts ++ s :: ss).
Proof.
  intros H1 H2 H3 H4 H5. split.
  - unfold before. cbn [app]. apply eo_text; [ok_side|discriminate|intro; ok_side|reflexivity|]. apply eo_tag; [reflexivity|discriminate|]. now apply eo_tag.
  - apply Forall2_app; [exact before_writes|]. now constructor.
Qed.
Example C82_nonvacuous : forall k s, In (k, s)
    [(SCommentNotTerminated, "{{! never } closed"); (SRawCommentNotTerminated, "{{!-- a comment }} {{x}}"); (SRawStatementNotTerminated, "\{{x} y");
     (SLinkNotTerminated, "[[page {{x}}"); (SLinkNotTerminated, "\[[page"); (SRawBlockNotTerminated, "{{{{raw}}}} b {{c}}")]%string ->
  pieces_of pe0 (before ++ [EvUnclosed k]) (before_parts ++ [lit s]) /\ verdict [] before = [] /\ reportable pe0 (concat before_parts ++ lit s).
Proof.
  assert (F : forall k s, unclosed pe0 k s -> pieces_of pe0 (before ++ [EvUnclosed k]) (before_parts ++ [s])).
  { intros k s H. apply after_before; [reflexivity|reflexivity|constructor|now apply ew_unclosed|constructor]. }
  intros k s Hin. split; [|split; [reflexivity|]].
  - apply F. cbn [In] in Hin. repeat (destruct Hin as [[= <- <-]|Hin]); [..|contradiction].
    + apply (uc_comment _ (lit " never } closed")); [discriminate|ok_side|]. intros r E. discriminate E.
    + apply (uc_raw_comment _ (lit " a comment }} {{x}}")); [discriminate|ok_side].
    + apply (uc_escaped _ (lit "x} y")); [discriminate|ok_side|]. intros (r & E). discriminate E.
    + apply (uc_link _ false (lit "page {{x}}")); [discriminate|discriminate|]. intros c Hc. cbn in Hc. intros Hd. cbn in Hd. repeat (destruct Hc as [<-|Hc]; [intuition discriminate|]). exact Hc.
    + apply (uc_link _ true (lit "page")); [discriminate|discriminate|]. intros c Hc. cbn in Hc. intros Hd. cbn in Hd. repeat (destruct Hc as [<-|Hc]; [intuition discriminate|]). exact Hc.
    + apply (uc_raw_block _ nt hello (lit "{{{{raw}}}}") (lit " b {{c}}")); [ok_side|apply last_b; reflexivity|exact hello_open|exact hello_text].
  - cbn [In] in Hin. repeat (destruct Hin as [[= <- <-]|Hin]; [apply reportable_check; vm_compute; reflexivity|]). contradiction.
Qed.
(** a raw block closed under another name, and a later mistake *)
Definition after : list event := [EvItem (IText (lit " d ")); EvClose nt (Call (HdName (lit "each")) [] [] [])].
Definition after_parts : list str := [lit " d "; lit "{{/each}}"].
Example C82_raw_nonvacuous :
  pieces_of pe0 (before ++ EvRaw (lit "raw") :: after) (before_parts ++ lit "{{{{raw}}}} b {{c}}{{{{/row}}}}" :: after_parts)
  /\ verdict [] before = [] /\ verdict (fold_left open_after before []) after = [(STagNameMismatch, [lit "opening name is 'if'"])]
  /\ match lint pe0 (lit "t") (concat (before_parts ++ lit "{{{{raw}}}} b {{c}}{{{{/row}}}}" :: after_parts)) with POk [e1; e2] _ => se_kind e1 = STagNameMismatch /\ se_kind e2 = STagNameMismatch | _ => False end.
Proof.
  split; [|split; [reflexivity|split; [reflexivity|vm_compute; split; reflexivity]]].
  apply after_before; [reflexivity|discriminate| | |].
  - unfold after. apply eo_text; [ok_side|intro; ok_side|intro; ok_side|reflexivity|]. apply eo_tag; [reflexivity|discriminate|constructor].
  - apply (ew_raw _ hello (lit "row")); [|discriminate]. exists nt, (lit "{{{{raw}}}}"), (lit " b {{c}}"), nt, (lit "{{{{/row}}}}").
    split; [reflexivity|]. split; [ok_side|]. split; [apply last_b; reflexivity|]. split; [exact hello_open|]. split; [exact hello_text|]. split; [ok_side|].
    exists (lit "{{{{/"), (lit "}}}}"). split; [reflexivity|]. split; [exists [], []; split; [reflexivity|split; gap_side]|exists []; split; [reflexivity|gap_side]].
  - constructor; [|constructor; [|constructor]].
    + apply ew_item; [reflexivity|apply okI_text; ok_side|constructor].
    + apply ew_close; [ok_side|left; discriminate|]. eapply (plain_call _ _ _ (lit "each")); [|cbn; tauto|reflexivity]. apply (w_call' Loose _ _ _ _ [] []); [constructor|constructor|reflexivity].
Qed.
(** ** What the conditions are for *)
(** Nothing after the opening [{{!]: the report is about the character before the comment.  Statement tags and block tags that
    are never closed are not reported at all, and a block that is never closed is dropped with everything in it (see also C70_silent_mistakes). *)
Theorem C82_empty_refuted :
  (exists e fs, compile pe0 opts0 (lit "ab {{!") = PErr e fs /\ se_kind e = SCommentNotTerminated /\ se_info e = report_lines (po_file opts0) 0 3 (lit "ab {{!") [])
  /\ accepted (lit "ab {{foo") 2 /\ accepted (lit "ab {{#if foo}} c") 1.
Proof.
  split; [vm_compute; eexists _, _; split; [reflexivity|split; reflexivity]|]. split; vm_compute; reflexivity.
Qed.
Print Assumptions C82_empty_refuted.
