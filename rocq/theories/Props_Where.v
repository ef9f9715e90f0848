(** * Props_Where: the error of a mistake points at the mistake (C76). *)
From Coq Require Import Lia String.
From Verif Require Import Str Regex Lexer Json Ast ErrInfo Parser Render Registry Tests StrFacts Spec_Lexer LexerFacts Spec_Ast ParserFacts DocFacts DocProps Props_Parser Spec_Source
  SynLayout Props_Source Props_Fail Spec_Panic Spec_Report ReportFacts Spec_Bad BadFacts BadParse BadParse2 BadTag BadEvents BadRun Props_Bad Props_Report.
Open Scope nat_scope. Open Scope list_scope.

(** ** The byte of the error is a byte of the faulty tag *)
(** compilation: the error is about the first mistake *)
Theorem C76_compile_partial : forall pe evs ss o, pieces_of pe evs ss -> let s := concat ss in
  match mistakes 0 [] evs ss with
  | [] => exists n fs, compile pe o s = POk n fs
  | x :: _ => compile pe o s = PPanic PanErrorInfo
      \/ exists e fs, compile pe o s = PErr e fs /\ located pe (po_file o) s (po_line o) (counted s /\ on_one_line s x) x e
  end.
Proof. intros pe evs ss o H. exact (compile_located pe evs ss o H). Qed.
Print Assumptions C76_compile_partial.
(** [lint]: the errors are about the mistakes, one by one *)
Theorem C76_lint_partial : forall pe evs ss name, pieces_of pe evs ss -> let s := concat ss in
  lint pe name s = PPanic PanErrorInfo
  \/ exists errs fs, lint pe name s = POk errs fs
       /\ Forall2 (located pe name s 0 (counted s /\ Forall (on_one_line s) (mistakes 0 [] evs ss))) (mistakes 0 [] evs ss) errs.
Proof. intros pe evs ss name H. exact (lint_located pe evs ss name H). Qed.
Print Assumptions C76_lint_partial.

(** ** The text of the report *)
Lemma newlines_le s : forall p q q', q <= q' -> newlines_before p s q <= newlines_before p s q'.
Proof.
  induction s as [|c s IH]; intros p q q' H; cbn [newlines_before]; [lia|]. specialize (IH (p + clen c) q q' H).
  destruct (c =? 10)%N; cbn [andb]; [|lia]. destruct (p <? q) eqn:E1, (p <? q') eqn:E2; try lia. apply Nat.ltb_lt in E1. apply Nat.ltb_ge in E2. lia.
Qed.
Lemma newlines_lt a b : forall p q', p + blen a < q' -> newlines_before p (a ++ 10%N :: b) (p + blen a) < newlines_before p (a ++ 10%N :: b) q'.
Proof.
  induction a as [|c a IH]; intros p q' H; cbn [app newlines_before].
  - change (blen []) with 0 in *. rewrite Nat.add_0_r in *. rewrite N.eqb_refl. cbn [andb]. rewrite Nat.ltb_irrefl. apply Nat.ltb_lt in H as E. rewrite E. apply Nat.ltb_lt in E.
    pose proof (newlines_le b (p + clen 10%N) p q'). lia.
  - change (blen (c :: a)) with (clen c + blen a) in *. rewrite Nat.add_assoc in *. specialize (IH (p + clen c) q' H).
    destruct (c =? 10)%N; cbn [andb]; [|lia]. destruct (p <? p + clen c + blen a) eqn:E1, (p <? q') eqn:E2; try lia. apply Nat.ltb_lt in E1. apply Nat.ltb_ge in E2. lia.
Qed.
Lemma last_line (a : str) : exists before l1, a = before ++ l1 /\ ~ In 10%N l1 /\ (before = [] \/ exists x, before = x ++ [10%N]).
Proof.
  induction a as [|c a IH] using rev_ind; [exists [], []; repeat split; [intros []|now left]|].
  destruct (N.eq_dec c 10) as [-> |Hc].
  - exists (a ++ [10%N]), []. rewrite app_nil_r. repeat split; [intros []|]. right. now exists a.
  - destruct IH as (before & l1 & -> & Hn & Hb). exists before, (l1 ++ [c]). rewrite app_assoc. repeat split; [|exact Hb].
    intros Hi. apply in_app_or in Hi. destruct Hi as [Hi|[Hi|[]]]; [auto|congruence].
Qed.
Lemma first_line (b : str) : exists l2 after, b = l2 ++ after /\ ~ In 10%N l2 /\ (after = [] \/ exists y, after = 10%N :: y).
Proof.
  induction b as [|c b IH]; [exists [], []; repeat split; [intros []|now left]|].
  destruct (N.eq_dec c 10) as [-> |Hc]; [exists [], (10%N :: b); repeat split; [intros []|right; now exists b]|].
  destruct IH as (l2 & after & -> & Hn & Ha). exists (c :: l2), after. repeat split; [|exact Ha]. intros [Hi|Hi]; [congruence|auto].
Qed.
(** every byte that is not a newline is on a line *)
Lemma line_exists s byte to : Forall (fun c => (c < 128)%N) s -> (forall r, s <> 10%N :: r) -> byte < to -> byte < length s ->
  newlines_before 0 s byte = newlines_before 0 s to -> exists col text, line_at s byte col text.
Proof.
  intros Ha Hs Hto Hlt Hnl. destruct (nth_error s byte) as [c|] eqn:E; [|apply nth_error_None in E; lia].
  destruct (nth_error_split _ _ E) as (a & b & Es & Hl).
  assert (Haa : Forall (fun c => (c < 128)%N) a) by (rewrite Es in Ha; now apply Forall_app in Ha).
  assert (Hc : c <> 10%N).
  { intros ->. pose proof (newlines_lt a b 0 to) as X. rewrite (ascii_blen _ Haa) in X. unfold str, chr in *. rewrite Hl in X. cbn [plus] in X. rewrite <- Es in X. specialize (X Hto). lia. }
  destruct (last_line a) as (before & l1 & -> & H1 & H2). destruct (first_line b) as (l2 & after & -> & H3 & H4).
  exists (length l1 + 1), (l1 ++ c :: l2), before, l1, c, l2, after. repeat split; try assumption.
  - rewrite Es, <- !app_assoc. reflexivity.
  - rewrite <- Hl, app_length. reflexivity.
  - intros Hi. apply in_app_or in Hi. destruct Hi as [Hi|[Hi|Hi]]; auto.
  - destruct H2 as [-> |(x & ->)]; [now left|right]. exists x. split; [|reflexivity]. intros ->. cbn in Es. exact (Hs _ Es).
Qed.
Lemma err_info_notes w file s line byte notes r : err_info w file s line byte notes = Some r ->
  exists r0, err_info w file s line byte [] = Some r0 /\ r = r0 ++ note_lines line notes.
Proof.
  unfold err_info. destruct (find_prev s byte) as [prev|]; [|discriminate]. destruct (find_next s (blen s - byte) byte) as [next|]; [|discriminate].
  cbv zeta. destruct (slice s _ _) as [ls|]; [|discriminate]. destruct (slice s _ _) as [ds|]; [|discriminate].
  intros E. assert (Hi : forall X Y : str, Some X = Some Y -> X = Y) by (intros X Y E'; congruence). apply Hi in E. subst r. eexists. split; [reflexivity|].
  assert (Hbl : blen ([32%N] ++ nat_str (line + 1) ++ lit " | ") - 3 = length (nat_str (line + 1)) + 1).
  { rewrite !blen_app, (ascii_blen _ (digits_ascii _)). cbn. lia. }
  cbn [app] in Hbl. rewrite <- !app_assoc. cbn [app]. rewrite Hbl. unfold note_lines. rewrite flat_map_concat_map. destruct notes; repeat first [rewrite <- app_assoc|progress cbn [app]]; rewrite ?app_nil_r; reflexivity.
Qed.
Lemma report_app file line col text t u : report_lines file line col text (t ++ u) = report_lines file line col text t ++ u.
Proof. unfold report_lines. cbv zeta. rewrite <- !app_assoc. reflexivity. Qed.
Lemma mistakes_inside evs : forall p open ss x, In x (mistakes p open evs ss) -> snd (snd x) <= p + blen (concat ss).
Proof.
  induction evs as [|e evs IH]; intros p open [|s ss] x; cbn [mistakes]; try (intros []). rewrite in_app_iff. cbn [concat]. rewrite blen_app. intros [H|H].
  - apply in_map_iff in H. destruct H as (m & <- & _). cbn [snd]. lia.
  - specialize (IH _ _ _ _ H). lia.
Qed.
Lemma located_shown pe file s l0 (P : Prop) x e : showable pe s -> snd (snd x) <= blen s -> P -> on_one_line s x -> located pe file s l0 P x e -> shown file s l0 x e.
Proof.
  intros (Ha & Hw & Hs) Hx HP H1l (H1 & line & byte & H2 & H3 & H4). split; [exact H1|]. specialize (H4 HP). subst line.
  assert (Hnl : newlines_before 0 s byte = newlines_before 0 s (snd (snd x))).
  { unfold on_one_line in H1l. pose proof (newlines_le s 0 (fst (snd x)) byte (proj1 H3)). pose proof (newlines_le s 0 byte (snd (snd x)) (Nat.lt_le_incl _ _ (proj2 H3))). lia. }
  rewrite (ascii_blen _ Ha) in Hx.
  destruct (line_exists s byte (snd (snd x)) Ha Hs (proj2 H3)) as (col & text & Hl); [exact (Nat.lt_le_trans _ _ _ (proj2 H3) Hx)|exact Hnl|].
  exists byte, col, text. split; [exact H3|]. split; [exact Hl|]. cbv zeta.
  destruct (err_info_notes _ _ _ _ _ _ _ H2) as (r0 & E0 & ->). destruct (err_info_line (pe_width pe) file s (l0 + newlines_before 0 s byte) byte col text [] Hw Hl) as (tail & E1 & Ht).
  rewrite E1 in E0. injection E0 as <-. rewrite (Ht eq_refl). now rewrite <- report_app.
Qed.
Theorem C76_report_partial : forall pe evs ss o x xs, pieces_of pe evs ss -> let s := concat ss in
  mistakes 0 [] evs ss = x :: xs -> showable pe s -> counted s -> on_one_line s x ->
  compile pe o s = PPanic PanErrorInfo \/ exists e fs, compile pe o s = PErr e fs /\ shown (po_file o) s (po_line o) x e.
Proof.
  intros pe evs ss o x xs H s Hm Hsh Hc H1. pose proof (C76_compile_partial pe evs ss o H) as X. cbv zeta in X. fold s in X. pose proof (mistakes_inside evs 0 [] ss x) as Hi. rewrite Hm in X, Hi.
  destruct X as [X|(e & fs & X & He)]; [now left|right]. exists e, fs. split; [exact X|]. eapply located_shown; [exact Hsh|apply Hi; now left| |exact H1|exact He]. now split.
Qed.
Print Assumptions C76_report_partial.
Theorem C76_report_lint_partial : forall pe evs ss name, pieces_of pe evs ss -> let s := concat ss in
  showable pe s -> counted s -> Forall (on_one_line s) (mistakes 0 [] evs ss) ->
  lint pe name s = PPanic PanErrorInfo \/ exists errs fs, lint pe name s = POk errs fs /\ Forall2 (shown name s 0) (mistakes 0 [] evs ss) errs.
Proof.
  intros pe evs ss name H s Hsh Hc H1. destruct (C76_lint_partial pe evs ss name H) as [X|(errs & fs & X & He)]; [now left|right]. exists errs, fs. split; [exact X|].
  fold s in He. assert (Hin : forall x, In x (mistakes 0 [] evs ss) -> snd (snd x) <= blen s) by (intros x Hx; exact (mistakes_inside _ _ _ _ _ Hx)).
  assert (HP : counted s /\ Forall (on_one_line s) (mistakes 0 [] evs ss)) by now split. revert HP He Hin H1. generalize (counted s /\ Forall (on_one_line s) (mistakes 0 [] evs ss)) as P. clear -Hsh.
  intros P HP He Hin H1. induction He as [|x e xs es Hx _ IH]; [constructor|]. inversion H1; subst. constructor; [|apply IH; auto; intros; apply Hin; now right].
  eapply located_shown; [exact Hsh|apply Hin; now left|exact HP|assumption|exact Hx].
Qed.
Print Assumptions C76_report_lint_partial.
(** with no panic on the sources of [Spec_Report.reportable], at the registry *)
Theorem C76_registry_partial : forall pl fuel reg name data evs ss x xs, pieces_of (pl_penv pl) evs ss -> let s := concat ss in
  mistakes 0 [] evs ss = x :: xs -> showable (pl_penv pl) s -> reportable (pl_penv pl) s -> counted s -> on_one_line s x ->
  exists e, shown name s 0 x e
    /\ registry_once fuel pl reg name s data = AErr (XSyntax e)
    /\ registry_insert pl name s reg = (AErr (XSyntax e), reg).
Proof.
  intros pl fuel reg name data evs ss x xs H s Hm Hsh Hr Hc H1. destruct (C76_report_partial (pl_penv pl) evs ss (mkOpts name 0 0) x xs H Hm Hsh Hc H1) as [X|(e & fs & X & He)].
  - exfalso. exact (compile_reportable _ _ _ _ Hr X).
  - fold s in X. exists e. split; [exact He|]. unfold registry_once, registry_insert, template_compile. rewrite X. now split.
Qed.
Print Assumptions C76_registry_partial.
Definition shown_error (file s : str) (x : spot) (er : error) : Prop := exists e, er = XSyntax e /\ shown file s 0 x e.
Theorem C76_registry_lint_partial : forall pl name evs ss, pieces_of (pl_penv pl) evs ss -> let s := concat ss in
  showable (pl_penv pl) s -> reportable (pl_penv pl) s -> counted s -> Forall (on_one_line s) (mistakes 0 [] evs ss) ->
  exists errs, registry_lint pl name s = AOk errs /\ Forall2 (shown_error name s) (mistakes 0 [] evs ss) errs.
Proof.
  intros pl name evs ss H s Hsh Hr Hc H1. unfold registry_lint. destruct (C76_report_lint_partial (pl_penv pl) evs ss name H Hsh Hc H1) as [X|(errs & fs & X & He)].
  - exfalso. exact (lint_reportable _ _ _ _ Hr X).
  - fold s in X. rewrite X. exists (map XSyntax errs). split; [reflexivity|]. fold s in He. clear -He. induction He as [|m e ms errs Hx _ IH]; constructor; [now exists e|exact IH].
Qed.
Print Assumptions C76_registry_lint_partial.

(** ** Concrete sources *)
(** the five mistakes of [Props_Bad], on one line *)
Definition five_spots : list spot := mistakes 0 [] five (map lit five_parts).
Example C76_nonvacuous :
  pieces_of pe0 five (map lit five_parts)
  /\ map (fun x => (fst (fst x), snd x)) five_spots
     = [(STagNameMismatch, (12, 21)); (STokenParameter, (22, 30)); (STokenError, (39, 49)); (SSubExpressionNotTerminated, (69, 79)); (SBlockNotOpen, (82, 91))]
  /\ showable pe0 five_text /\ reportable pe0 five_text /\ counted five_text /\ Forall (on_one_line five_text) five_spots.
Proof.
  split; [exact five_pieces|]. split; [vm_compute; reflexivity|]. split; [|split; [apply C10_reportable_nonvacuous|split]].
  - split; [repeat constructor|]. split; [reflexivity|]. intros r H. discriminate H.
  - intros toks E. vm_compute in E. injection E as <-. intros [(t & Hin & Hk)|(a & t & mid & u & b & E & [Hk|Hk] & _)].
    + cbn in Hin. repeat (destruct Hin as [<-|Hin]; [exact Hk|]). exact Hin.
    + assert (Hin : In t (a ++ t :: mid ++ u :: b)) by apply in_elt. rewrite <- E in Hin. clear E. cbn in Hin. repeat (destruct Hin as [<-|Hin]; [discriminate Hk|]). exact Hin.
    + assert (Hin : In t (a ++ t :: mid ++ u :: b)) by apply in_elt. rewrite <- E in Hin. clear E. cbn in Hin. repeat (destruct Hin as [<-|Hin]; [discriminate Hk|]). exact Hin.
  - vm_compute. repeat constructor.
Qed.
(** two mistakes on different lines *)
Definition page : list event :=
  [EvItem (IText (lit "a" ++ [10%N])); EvClose nt (Call (HdName (lit "if")) [] [] []); EvItem (IText ([10%N] ++ lit "b ")); EvBad STokenParameter].
Definition page_parts : list str := [lit "a" ++ [10%N]; lit "{{/if}}"; [10%N] ++ lit "b "; lit "{{f g=}}"].
Lemma page_pieces : pieces_of pe0 page page_parts.
Proof.
  split.
  - unfold page. repeat first [apply eo_nil|apply eo_text; [ok_side|intro; first [discriminate|ok_side]|intro; ok_side|first [exact I|reflexivity]|]|apply eo_tag; [reflexivity|discriminate|]].
  - unfold page, page_parts. constructor; [|constructor; [|constructor; [|constructor; [|constructor]]]].
    + apply ew_item; [reflexivity|apply okI_text; ok_side|constructor].
    + apply ew_close; [ok_side|left; discriminate|]. assert (Hname : call_writes Loose (Call (HdName (lit "if")) [] [] []) (lit "if")) by (apply (w_call' Loose _ _ _ _ [] []); [constructor|constructor|reflexivity]).
      eapply plain_call; [exact Hname|cbn; tauto|reflexivity].
    + apply ew_item; [reflexivity|apply okI_text; ok_side|constructor].
    + apply ew_bad. apply (bt_plain _ _ (lit "f g=}}")); [|not_in|reflexivity].
      apply (bad_value' _ _ (HdName (lit "f")) [] [] [] [] [] (lit " ") (lit "g") (lit "}}")); [ok_side..|constructor|constructor|constructor|gap_side|discriminate|ok_side| |reflexivity].
      apply bad_end; [reflexivity|apply closes_two].
Qed.
Lemma no_uncounted s toks : lex s = Some toks ->
  forallb (fun t => match t_kind t with TLink _ | TParam KParentRef | TParam KPathDelim => false | _ => true end) toks = true -> counted s.
Proof.
  intros E H toks' E'. rewrite E in E'. injection E' as <-. rewrite forallb_forall in H. intros [(t & Hin & Hk)|(a & t & mid & u & b & -> & Hk & _)].
  - specialize (H t Hin). destruct (t_kind t); try exact Hk. discriminate H.
  - specialize (H t (in_elt _ _ _)). destruct Hk as [Hk|Hk]; rewrite Hk in H; discriminate H.
Qed.
(** line 2, columns 1 to 7, and line 3, columns 3 to 10; the reports name both *)
Example C76_page :
  mistakes 0 [] page page_parts = [((SBlockNotOpen, [lit "perhaps open the block 'if'"]), (2, 9)); ((STokenParameter, []), (12, 20))]
  /\ showable pe0 (concat page_parts) /\ reportable pe0 (concat page_parts) /\ counted (concat page_parts)
  /\ Forall (on_one_line (concat page_parts)) (mistakes 0 [] page page_parts)
  /\ (exists e1 e2 fs, lint pe0 (lit "t") (concat page_parts) = POk [e1; e2] fs
       /\ se_info e1 = report_lines (lit "t") 1 1 (lit "{{/if}}") (note_lines 1 [lit "perhaps open the block 'if'"])
       /\ se_info e2 = report_lines (lit "t") 2 6 (lit "b {{f g=}}") []).
Proof.
  split; [vm_compute; reflexivity|]. split; [|split; [apply reportable_check; vm_compute; reflexivity|split; [|split]]].
  - split; [repeat constructor|]. split; [reflexivity|]. intros r H. discriminate H.
  - eapply no_uncounted; [vm_compute; reflexivity|reflexivity].
  - vm_compute. repeat constructor.
  - vm_compute. eexists _, _, _. split; [reflexivity|]. split; reflexivity.
Qed.
(** ** What the conditions are for *)
(** A mistake in a tag of several lines: the report shows the first line of the tag and gives it the number of the third;
    [lint] gives the mistakes after such a tag the wrong number. *)
Theorem C76_line_refuted :
  (exists e fs, compile pe0 opts0 (lit "{{foo" ++ [10%N; 10%N] ++ lit " >}}") = PErr e fs /\ se_info e = report_lines (po_file opts0) 2 3 (lit "{{foo") [])
  /\ (exists e1 e2 fs, lint pe0 (lit "t") (lit "{{f ," ++ [10%N] ++ lit " }}" ++ [10%N] ++ lit "{{f g=}}") = POk [e1; e2] fs
       /\ se_info e2 = report_lines (lit "t") 1 4 (lit "{{f g=}}") []).
Proof.
  split.
  - vm_compute. do 2 eexists. split; reflexivity.
  - vm_compute. do 3 eexists. split; reflexivity.
Qed.
Print Assumptions C76_line_refuted.
(** the line after a newline that starts the source is shown with the newline in it *)
Theorem C76_first_newline_refuted : exists e fs, compile pe0 opts0 ([10%N] ++ lit "{{f g=}}") = PErr e fs /\ se_info e = report_lines (po_file opts0) 1 5 ([10%N] ++ lit "{{f g=}}") [].
Proof. vm_compute. do 2 eexists. split; reflexivity. Qed.
Print Assumptions C76_first_newline_refuted.
