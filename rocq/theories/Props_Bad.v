(** * Props_Bad: malformed templates (C70, C71). *)
From Coq Require Import Lia String.
From Verif Require Import Str Regex Lexer Json Ast ErrInfo Parser Render Helpers Registry Tests Spec_Lexer Spec_Source SynLayout Props_Parser Props_Source Props_Fail
  Spec_Bad BadFacts BadParse BadParse2 BadTag BadEvents BadRun.
Open Scope nat_scope. Open Scope list_scope.

(** ** C70: the first mistake of a source is the error it is rejected with; a source without mistakes compiles.
    (Formatting the report may panic, see C10.) *)
Theorem C70_first_mistake : forall pe o evs s, source_of pe evs s ->
  match verdict [] evs with
  | [] => exists n fs, compile pe o s = POk n fs
  | k :: _ => compile pe o s = PPanic PanErrorInfo \/ exists e fs, compile pe o s = PErr e fs /\ error_for pe (po_file o) s k e
  end.
Proof. intros. now apply compile_of. Qed.
Print Assumptions C70_first_mistake.
(** a tag with a mistake, anywhere between good pieces at the top level *)
Theorem C70_bad_tag : forall pe o evs k evs' s, source_of pe (evs ++ EvBad k :: evs') s -> (forall e, In e evs -> exists i, e = EvItem i) ->
  compile pe o s = PPanic PanErrorInfo \/ exists e fs, compile pe o s = PErr e fs /\ error_for pe (po_file o) s (k, []) e.
Proof.
  intros pe o evs k evs' s H Hg. pose proof (C70_first_mistake pe o _ s H) as X.
  assert (E : verdict [] (evs ++ EvBad k :: evs') = (k, []) :: verdict [] evs').
  { clear H X. induction evs as [|e evs IH]; [reflexivity|]. destruct (Hg e (or_introl eq_refl)) as (i & ->). cbn [app verdict]. apply IH. intros e He. apply Hg. now right. }
  rewrite E in X. exact X.
Qed.
Print Assumptions C70_bad_tag.
(** at the registry: [once] reports the first mistake and [insert] leaves the registry as it was *)
Theorem C70_registry : forall pl fuel reg name data evs s k ks, source_of (pl_penv pl) evs s -> verdict [] evs = k :: ks ->
  (registry_once fuel pl reg name s data = APanic PanErrorInfo \/ exists e, registry_once fuel pl reg name s data = AErr (XSyntax e) /\ error_for (pl_penv pl) name s k e)
  /\ snd (registry_insert pl name s reg) = reg
  /\ (fst (registry_insert pl name s reg) = APanic PanErrorInfo \/ exists e, fst (registry_insert pl name s reg) = AErr (XSyntax e) /\ error_for (pl_penv pl) name s k e).
Proof.
  intros pl fuel reg name data evs s k ks H Hv. pose proof (C70_first_mistake _ (mkOpts name 0 0) _ _ H) as X. rewrite Hv in X.
  unfold registry_once, registry_insert, template_compile. destruct X as [-> |(e & fs & -> & Ek)]; cbn [fst snd].
  - repeat split; now left.
  - repeat split; right; exists e; now split.
Qed.
Print Assumptions C70_registry.

(** ** C71: [lint] finds every mistake, in order. *)
Theorem C71_lint : forall pe name evs s, source_of pe evs s ->
  lint pe name s = PPanic PanErrorInfo \/ exists errs fs, lint pe name s = POk errs fs /\ Forall2 (error_for pe name s) (verdict [] evs) errs.
Proof. intros. now apply lint_of. Qed.
Print Assumptions C71_lint.
Definition is_syntax (pe : penv) (file s : str) (m : fault) (x : error) : Prop := exists e, x = XSyntax e /\ error_for pe file s m e.
Theorem C71_registry_lint : forall pl name evs s, source_of (pl_penv pl) evs s ->
  registry_lint pl name s = APanic PanErrorInfo \/ exists errs, registry_lint pl name s = AOk errs /\ Forall2 (is_syntax (pl_penv pl) name s) (verdict [] evs) errs.
Proof.
  intros pl name evs s H. unfold registry_lint. destruct (C71_lint _ name _ _ H) as [-> |(errs & fs & -> & E)]; [now left|right].
  exists (map XSyntax errs). split; [reflexivity|]. clear -E. induction E as [|m e ms errs He _ IH]; constructor; [exists e; split; [reflexivity|exact He]|exact IH].
Qed.
Print Assumptions C71_registry_lint.

(** ** A concrete source with five mistakes: a block closed by the wrong name, a value missing, a stray comma inside a
    block, a sub-expression that is not closed, a closing tag without a block. *)
Definition five : list event :=
  [EvItem (IText (lit "a "));
   EvOpen false (Call (HdName (lit "if")) [] [EPath (HdName (lit "x")) []] []) nt;
   EvItem (IText (lit "b"));
   EvClose nt (Call (HdName (lit "each")) [] [] []);
   EvItem (IText (lit "c"));
   EvBad STokenParameter;
   EvOpen false (Call (HdName (lit "if")) [] [EPath (HdName (lit "y")) []] []) nt;
   EvBad STokenError;
   EvElse None nt;
   EvItem (ICall false nt false (Call (HdName (lit "q")) [] [] []));
   EvClose nt (Call (HdName (lit "if")) [] [] []);
   EvBad SSubExpressionNotTerminated;
   EvItem (IText (lit " d "));
   EvClose nt (Call (HdName (lit "with")) [] [] []);
   EvItem (IText (lit "."))].
Definition five_parts : list string := ["a "; "{{#if x}}"; "b"; "{{/each}}"; "c"; "{{f g=}}"; "{{#if y}}"; "{{f g, h}}"; "{{else}}"; "{{q}}"; "{{/if}}"; "{{f (g 1}}"; " d "; "{{/with}}"; "."]%string.
Definition five_text : str := concat (map lit five_parts).
Lemma bad_args' pe f h t args sa g s k u : head_ok h -> tail_ok t -> Forall (expr_ok pe) args -> args_write Loose args sa ->
  gap_str g -> g <> [] \/ joins s -> bad pe (AtArg (is_sub f)) k s -> u = path_text h t ++ sa ++ g ++ s -> bad pe (AtTarget f) k u.
Proof. intros; subst. eapply bad_args; eassumption. Qed.
Lemma bad_value' pe f h t args sa hash sh g key s k u : head_ok h -> tail_ok t -> Forall (expr_ok pe) args -> args_write Loose args sa ->
  Forall (fun kv => key_ok (fst kv) /\ expr_ok pe (snd kv)) hash -> hash_writes Loose hash sh ->
  gap_str g -> g <> [] -> key_ok key -> bad pe AtValue k s -> u = path_text h t ++ sa ++ sh ++ g ++ (key ++ [61%N]) ++ s -> bad pe (AtTarget f) k u.
Proof. intros; subst. eapply bad_value; eassumption. Qed.
Lemma bad_word' pe pl wk w s k u : word wk w -> mistake pl wk = Some k -> followed wk s -> tag_rest s -> u = w ++ s -> bad pe pl k u.
Proof. intros; subst. eapply bad_word; eassumption. Qed.
Lemma bad_sub' pe pl g s k u : (exists b, pl = AtArg b) \/ pl = AtValue \/ (exists f, pl = AtTarget f /\ f <> InSub) ->
  gap_str g -> bad pe (AtTarget InSub) k s -> u = [40%N] ++ g ++ s -> bad pe pl k u.
Proof. intros; subst. now apply bad_sub. Qed.
Lemma bt_plain pe k u s : bad pe (AtTarget Plain) k u -> ~ starts_in [123; 126; 9; 32; 35; 47; 33]%N u -> s = lit "{{" ++ u -> bad_tag pe k s.
Proof.
  intros H1 H2 ->. apply (bt_call pe "{{" nt [] (lit "{{") Plain [] u k); [cbn; tauto| |reflexivity|exact H1|exact H2].
  exists [], []. split; [reflexivity|split; gap_side].
Qed.
Lemma closes_two : closes (lit "}}").
Proof. exists false, "}}"%string. split; [reflexivity|cbn; tauto]. Qed.
Ltac not_in := let H := fresh in intros (? & ? & E & H); cbn in E; injection E as <- <-; cbn in H; repeat (destruct H as [H|H]; [discriminate H|]); exact H.
Lemma plain_call l mark c u s : call_writes Loose c u -> In (l, mark) [("{{"%string, []); ("{{"%string, [35%N]); ("{{"%string, [47%N])] -> s = lit l ++ mark ++ u ++ lit "}}" -> tag_writes Loose l nt mark false c "}}" s.
Proof.
  intros Hc Hin ->. exists (lit l ++ mark), [], u, (lit "}}"). split; [now rewrite <- !app_assoc|]. split.
  - exists [], []. split; [cbn in Hin; destruct Hin as [[= <- <-]|[[= <- <-]|[[= <- <-]|[]]]]; reflexivity|split; gap_side].
  - split; [reflexivity|]. split; [exact Hc|]. exists []. split; [reflexivity|gap_side].
Qed.
Lemma five_pieces : pieces_of pe0 five (map lit five_parts).
Proof.
  split.
  - unfold five. repeat first [apply eo_nil|apply eo_text; [ok_side|intro; first [discriminate|ok_side]|intro; ok_side|first [exact I|reflexivity]|]|apply eo_tag; [reflexivity|discriminate|]].
  - unfold five, five_parts. cbn [map].
    assert (Hopen : forall w, w = "x"%string \/ w = "y"%string -> call_writes Loose (Call (HdName (lit "if")) [] [EPath (HdName (lit w)) []] []) (lit "if " ++ lit w)).
    { intros w Hw. apply (w_call' Loose _ _ _ _ ([32%N] ++ lit w) []); [|constructor|destruct Hw as [-> | ->]; reflexivity].
      apply (w_args' Loose _ _ [32%N] (lit w) []); [gap_side|apply w_path'; now destruct Hw as [-> | ->]|constructor|now rewrite app_nil_r]. }
    assert (Hname : forall w, call_writes Loose (Call (HdName (lit w)) [] [] []) (lit w)).
    { intros w. apply (w_call' Loose _ _ _ _ [] []); [constructor|constructor|]. unfold path_text. cbn. now rewrite !app_nil_r. }
    repeat match goal with |- Forall2 _ (_ :: _) _ => constructor | |- Forall2 _ [] _ => constructor end.
    + apply ew_item; [reflexivity|apply okI_text; ok_side|constructor].
    + apply ew_open; [ok_side|apply last_b; reflexivity|]. eapply plain_call; [apply (Hopen "x"%string); now left|cbn; tauto|reflexivity].
    + apply ew_item; [reflexivity|apply okI_text; ok_side|constructor].
    + apply ew_close; [ok_side|left; discriminate|]. eapply plain_call; [apply Hname|cbn; tauto|reflexivity].
    + apply ew_item; [reflexivity|apply okI_text; ok_side|constructor].
    + apply ew_bad. apply (bt_plain _ _ (lit "f g=}}")); [|not_in|reflexivity].
      apply (bad_value' _ _ (HdName (lit "f")) [] [] [] [] [] (lit " ") (lit "g") (lit "}}")); [ok_side..|constructor|constructor|constructor|gap_side|discriminate|ok_side| |reflexivity].
      apply bad_end; [reflexivity|apply closes_two].
    + apply ew_open; [ok_side|apply last_b; reflexivity|]. eapply plain_call; [apply (Hopen "y"%string); now right|cbn; tauto|reflexivity].
    + apply ew_bad. apply (bt_plain _ _ (lit "f g, h}}")); [|not_in|reflexivity].
      apply (bad_args' _ _ (HdName (lit "f")) [] [EPath (HdName (lit "g")) []] (lit " g") [] (lit ", h}}")); [ok_side..| | | | |reflexivity].
      * apply (w_args' Loose _ _ [32%N] (lit "g") []); [gap_side|now apply w_path'|constructor|reflexivity].
      * gap_side.
      * right. exists 44%N, (lit " h}}"). split; [reflexivity|cbn; tauto].
      * apply (bad_word' _ _ WStray [44%N] (lit " h}}")); [constructor; cbn; tauto|reflexivity|left; reflexivity| |reflexivity].
        exists (lit " h"), (lit "}}"). split; [reflexivity|]. split; [|apply closes_two]. intros c Hc. cbn in Hc. destruct Hc as [<-|[<-|[]]]; cbn; intuition discriminate.
    + apply ew_else; [discriminate|]. exists (lit "{{"), [], (lit "}}"). split; [reflexivity|]. split; [exists [], []; split; [reflexivity|split; gap_side]|].
      split; [exists []; split; [reflexivity|gap_side]|reflexivity].
    + apply ew_item; [reflexivity|ok_item|]. apply canon_item; [ok_item|reflexivity].
    + apply ew_close; [ok_side|left; discriminate|]. eapply plain_call; [apply Hname|cbn; tauto|reflexivity].
    + apply ew_bad. apply (bt_plain _ _ (lit "f (g 1}}")); [|not_in|reflexivity].
      apply (bad_args' _ _ (HdName (lit "f")) [] [] [] (lit " ") (lit "(g 1}}")); [ok_side..|constructor|gap_side|left; discriminate| |reflexivity].
      apply (bad_sub' _ _ [] (lit "g 1}}")); [left; now exists false|gap_side| |reflexivity].
      apply (bad_args' _ _ (HdName (lit "g")) [] [ENum (lit "1")] (lit " 1") [] (lit "}}")); [ok_side..| | | | |reflexivity].
      * apply (w_args' Loose _ _ [32%N] (lit "1") []); [gap_side|constructor|constructor|reflexivity].
      * gap_side.
      * right. exists 125%N, (lit "}"). split; [reflexivity|cbn; tauto].
      * apply bad_end; [reflexivity|apply closes_two].
    + apply ew_item; [reflexivity|apply okI_text; ok_side|constructor].
    + apply ew_close; [ok_side|left; discriminate|]. eapply plain_call; [apply Hname|cbn; tauto|reflexivity].
    + apply ew_item; [reflexivity|apply okI_text; ok_side|constructor].
Qed.
Lemma five_source : source_of pe0 five five_text.
Proof. exists (map lit five_parts). split; [exact five_pieces|reflexivity]. Qed.
Example C71_nonvacuous : source_of pe0 five five_text
  /\ verdict [] five = [(STagNameMismatch, [lit "opening name is 'if'"]); (STokenParameter, []); (STokenError, []); (SSubExpressionNotTerminated, []);
                       (SBlockNotOpen, [lit "perhaps open the block 'with'"])]
  /\ (exists errs fs, lint pe0 (lit "t") five_text = POk errs fs /\ Forall2 (error_for pe0 (lit "t") five_text) (verdict [] five) errs)
  /\ (exists e fs, compile pe0 opts0 five_text = PErr e fs /\ error_for pe0 (po_file opts0) five_text (STagNameMismatch, [lit "opening name is 'if'"]) e).
Proof.
  split; [exact five_source|]. split; [reflexivity|]. split.
  - destruct (C71_lint pe0 (lit "t") _ _ five_source) as [E|E]; [|exact E]. exfalso. assert (X : match lint pe0 (lit "t") five_text with PPanic _ => False | _ => True end) by (vm_compute; exact I). rewrite E in X. exact X.
  - destruct (C70_first_mistake pe0 opts0 _ _ five_source) as [E|E]; [|exact E]. exfalso. assert (X : match compile pe0 opts0 five_text with PPanic _ => False | _ => True end) by (vm_compute; exact I). rewrite E in X. exact X.
Qed.

(** a mistake in each kind of path *)
Lemma rest_two : tag_rest (lit "}}").
Proof. exists [], (lit "}}"). split; [reflexivity|]. split; [intros c []|apply closes_two]. Qed.
Lemma rest_b : tag_rest (lit "b}}").
Proof. exists (lit "b"), (lit "}}"). split; [reflexivity|]. split; [|apply closes_two]. intros c [<-|[]]; cbn; intuition discriminate. Qed.
Example C70_paths_nonvacuous : forall s k, In (s, k)
    [("{{a..b}}", SUnexpectedPathDelimiter); ("{{.b}}", SUnexpectedPathDelimiter); ("{{a/../b}}", SUnexpectedPathParent); ("{{a../b}}", SUnexpectedPathParent);
     ("{{a.this}}", SUnexpectedPathExplicitThis); ("{{a./b}}", SUnexpectedPathExplicitThis); ("{{a.@b}}", SUnexpectedPathLocal); ("{{a[b]}}", SExpectedPathDelimiter);
     ("{{a'b'}}", SExpectedPathDelimiter); ("{{a.'b
b'}}", SLiteralNewline);
     ("{{../../this}}", SUnexpectedPathParentWithExplicit); ("{{../@b}}", SUnexpectedPathParentWithLocal)]%string ->
  bad_tag pe0 k (lit s) /\ match compile pe0 opts0 (lit s) with PErr e _ => se_kind e = k | _ => False end.
Proof.
  assert (Hd : forall x u, (x =? 46)%N = false -> (x =? 47)%N = false -> ~ starts_in [46; 47]%N (x :: u)).
  { intros x u A B (c & r & [= <- <-] & [E|[E|[]]]); subst x; discriminate. }
  assert (Hend : ended (lit "}}")) by (exists 125%N, [125%N]; split; [reflexivity|cbn; tauto]).
  assert (Ha : head_ok (HdName (lit "a"))) by ok_side. assert (Hb : key_ok (lit "b")) by ok_side.
  assert (T : forall u k, bad_path k (lit u) -> ~ starts_in [123; 126; 9; 32; 35; 47; 33]%N (lit u) -> bad_tag pe0 k (lit "{{" ++ lit u)).
  { intros u k H1 H2. apply (bt_plain _ _ (lit u)); [|exact H2|reflexivity]. apply bad_at_path; [left; now exists Plain|exact H1]. }
  intros s k Hin. cbn [In] in Hin.
  repeat (destruct Hin as [[= <- <-]|Hin]; [split; [|vm_compute; reflexivity]|]); [..|contradiction].
  - apply (T "a..b}}"%string); [|not_in]. apply (bp_delims (HdName (lit "a")) [] false false (lit "b}}")); [exact Ha|constructor|reflexivity|apply rest_b|now apply Hd].
  - apply (T ".b}}"%string); [|not_in]. apply (bp_dot (lit "b}}")); [apply rest_b|now apply Hd].
  - apply (T "a/../b}}"%string); [|not_in]. apply (bp_word (HdName (lit "a")) [] true WUp (lit "../") (lit "b}}")); [exact Ha|constructor|constructor|reflexivity|discriminate|now left|apply rest_b].
  - apply (T "a../b}}"%string); [|not_in]. apply (bp_joined (HdName (lit "a")) [] WUp (lit "../") (lit "b}}")); [exact Ha|constructor|constructor|cbn; tauto|reflexivity|apply rest_b].
  - apply (T "a.this}}"%string); [|not_in]. apply (bp_word (HdName (lit "a")) [] false WThis (lit "this") (lit "}}")); [exact Ha|constructor|constructor|reflexivity|intros _; now apply Hd|now right|apply rest_two].
  - apply (T "a./b}}"%string); [|not_in]. apply (bp_joined (HdName (lit "a")) [] WDot (lit "./") (lit "b}}")); [exact Ha|constructor|constructor|cbn; tauto|reflexivity|apply rest_b].
  - apply (T "a.@b}}"%string); [|not_in]. apply (bp_word (HdName (lit "a")) [] false WLocal (lit "@b") (lit "}}")); [exact Ha|constructor|now apply (wd_local (lit "b"))|reflexivity|intros _; now apply Hd|now right|apply rest_two].
  - apply (T "a[b]}}"%string); [|not_in]. apply (bp_literal (HdName (lit "a")) [] (SBracket (lit "b")) (lit "}}")); [exact Ha|constructor|ok_side|reflexivity|apply rest_two].
  - apply (T "a'b'}}"%string); [|not_in]. apply (bp_literal (HdName (lit "a")) [] (SQuoted true [SChar 98%N]) (lit "}}")); [exact Ha|constructor|ok_side|reflexivity|apply rest_two].
  - match goal with |- bad_tag _ _ (lit ?x) => replace (lit x) with (lit "{{" ++ lit "a." ++ [39; 98; 10; 98; 39]%N ++ lit "}}") by reflexivity end.
    apply (bt_plain _ _ (lit "a." ++ [39; 98; 10; 98; 39]%N ++ lit "}}")); [|not_in|reflexivity]. apply bad_at_path; [left; now exists Plain|].
    apply (bp_newline (HdName (lit "a")) [] false true ([39; 98; 10; 98; 39]%N) (lit "}}")); [exact Ha|constructor| |apply rest_two].
    apply (bk_string true [98%N] [98%N]); intros c [<-|[]]; cbn; intuition discriminate.
  - apply (T "../../this}}"%string); [|not_in]. apply (bp_up 2 WThis (lit "this") (lit "}}")); [lia|constructor|reflexivity|now right|apply rest_two].
  - apply (T "../@b}}"%string); [|not_in]. apply (bp_up 1 WLocal (lit "@b") (lit "}}")); [lia|now apply (wd_local (lit "b"))|reflexivity|now right|apply rest_two].
Qed.

(** a newline in a string argument *)
Example C70_newline_nonvacuous : let s := lit "{{f " ++ [34; 120; 10; 121; 34]%N ++ lit "}}" in
  bad_tag pe0 SLiteralNewline s /\ match compile pe0 opts0 s with PErr e _ => se_kind e = SLiteralNewline | _ => False end.
Proof.
  cbv zeta. split; [|vm_compute; reflexivity]. apply (bt_plain _ _ (lit "f " ++ [34; 120; 10; 121; 34]%N ++ lit "}}")); [|not_in|reflexivity].
  apply (bad_args' _ _ (HdName (lit "f")) [] [] [] (lit " ") ([34; 120; 10; 121; 34]%N ++ lit "}}")); [ok_side..|constructor|gap_side|left; discriminate| |reflexivity].
  apply (bad_newline _ _ false); [left; now exists false| |apply rest_two].
  apply (bk_string false [120%N] [121%N]); intros c [<-|[]]; cbn; intuition discriminate.
Qed.

(** ** Mistakes that are not reported: these sources compile, with fewer pieces than they were written with. *)
Definition accepted (s : str) (n : nat) : Prop := match compile pe0 opts0 s with POk (NDoc ns) _ => length ns = n | _ => False end.
Theorem C70_silent_mistakes :
  (* a sub-expression that is not closed after a [key=value] *)
  accepted (lit "{{foo (bar baz=1}} x") 2
  (* a path that ends in a delimiter *)
  /\ accepted (lit "{{a.}} x") 2
  (* tags that are not closed *)
  /\ accepted (lit "{{a") 1 /\ accepted (lit "x{{#if a") 1 /\ accepted (lit "x{{#if a}}b") 1
  (* [else] after an argument: the rest of the source is dropped *)
  /\ accepted (lit "{{a else b}} x {{y}}") 1
  (* a closing tag of a raw block without a raw block: the rest of the source is dropped *)
  /\ accepted (lit "a{{{{/raw}}}} x {{y}}") 1.
Proof. vm_compute. repeat split. Qed.
Print Assumptions C70_silent_mistakes.
