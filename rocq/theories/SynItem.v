(** * SynItem: parsing of printed text, statements, comments, links and raw blocks. *)
From Coq Require Import Lia String.
From Verif Require Import Str Regex Lexer Json Ast ErrInfo Parser StrFacts RegexFacts Spec_Lexer LexerFacts CallFacts BlockFacts Spec_Source SynLex SynStr SynPath SynCall SynTag SynDoc SynLink.
Open Scope nat_scope. Open Scope list_scope.
Notation at_ := SynPath.at_.

Definition unconditional (n : node) : Prop := match n with NStmt c => c_conditional c = false | _ => True end.
Lemma attach_push n line b : unconditional n -> attach n line b = block_push n b.
Proof. destruct n; cbn; try reflexivity. intros ->. reflexivity. Qed.

(** a piece, written [s], that one step of the parser reads completely *)
Definition leaf_good (ly : layout) (pe : penv) (i : item) (s : str) : Prop := forall p, exists k e ts,
  is_text (TBlock k) = false
  /\ (forall rest L, nobrace rest -> tokenizes MBlock (p + blen s) rest L ->
        tokenizes MBlock p (s ++ rest) (Tok (TBlock k) p e :: ts ++ L))
  /\ forall cx L line byte, px_env cx = pe -> at_ (px_src cx) p s ->
       exists node line' byte', node_is ly pe (px_src cx) node i /\ unconditional node
         /\ forall f stk, advance (S f) cx (Tok (TBlock k) p e) (mkF (mkPst (ts ++ L) line byte) stk None)
                          = POk (Some node) (mkF (mkPst L line' byte') stk None).

(** ** Statements *)
Lemma starts_app o u v : starts_with o u = true -> starts_with o (u ++ v) = true.
Proof. revert u. induction o as [|c o IH]; intros u H; [reflexivity|]. destruct u as [|d u]; [discriminate|]. cbn in *. apply andb_true_iff in H. destruct H as [H1 H2]. now rewrite H1, IH. Qed.
(** what the delimiters of a statement say *)
Lemma stmt_ends (tr : bool) m o s : opener (if tr then "{{{" else "{{") m [] o -> (exists r, s = o ++ r) -> tilde_sticks (if tr then "{{{" else "{{") m s ->
  starts_with (lit "{{{") o = tr /\ ends_with [126%N] o = tl_before m.
Proof.
  intros (b & -> & Hb) (r & ->) Hs. cbn [app] in Hb.
  assert (Hbl : forall c, In c b -> c = 32%N \/ c = 9%N) by (intros c Hc; specialize (Hb c Hc); cbn in Hb; intuition congruence).
  split.
  - unfold open_tag. destruct tr; [reflexivity|]. destruct (tl_before m); [reflexivity|]. destruct b as [|c b]; [reflexivity|].
    destruct (Hbl c (or_introl eq_refl)) as [-> | ->]; reflexivity.
  - unfold ends_with. unfold open_tag in *. destruct (tl_before m) eqn:Em.
    + destruct b as [|c b]; [destruct tr; reflexivity|]. exfalso. apply (Hs Em c (b ++ r)); [unfold open_tag; rewrite Em; now rewrite <- !app_assoc|].
      destruct (Hbl c (or_introl eq_refl)) as [-> | ->]; cbn; tauto.
    + cbn [tilde]. rewrite app_nil_r. rewrite rev_app_distr. destruct (rev b) as [|c rb] eqn:Er.
      * destruct tr; reflexivity.
      * assert (Hc : In c b) by (apply in_rev; rewrite Er; now left). destruct (Hbl c Hc) as [-> | ->]; reflexivity.
Qed.
Lemma closer_ends a cl : In cl closers -> starts_with [126%N] (tilde a ++ cl) = a.
Proof. intros H. cbn in H. destruct a; [reflexivity|]. destruct H as [<-|[<-|[<-|[]]]]; reflexivity. Qed.
Lemma stmt_leaf ly pe (tr : bool) m p c s : callx_ok pe c -> item_writes ly (ICall tr m p c) s -> leaf_good ly pe (ICall tr m p c) s.
Proof.
  intros Hc Hw q.
  assert (Hws : tag_writes ly (if tr then "{{{" else "{{") m [] p c (if tr then "}}}" else "}}") s /\ tilde_sticks (if tr then "{{{" else "{{") m s)
    by (inversion Hw; subst; split; assumption).
  destruct Hws as [(a & f & u & z & -> & Ha & Hf & Hu & (gz & -> & Hgz)) Hst]. apply partial_pre in Hf. apply around_gap in Hgz.
  set (l := if tr then "{{{"%string else "{{"%string) in *. set (cl := lit (if tr then "}}}" else "}}")).
  assert (Hin : In (l, [], BStartStatement) opens) by (subst l; destruct tr; cbn; tauto).
  assert (Hcl : In cl closers) by (subst cl; destruct tr; cbn; tauto).
  destruct (open_good ly pe l [] BStartStatement m a f p false c u gz (tl_after m) cl Hin Ha Hf Hu Hc Hgz Hcl q) as (o & ts & Ho & (ra & Era) & Hlex & Hlen & Hparse).
  unfold close_tag in *. fold cl in Hw, Hst |- *. set (T := a ++ f ++ u ++ gz ++ tilde (tl_after m) ++ cl) in *.
  exists BStartStatement, (q + blen o), ts. split; [reflexivity|]. split; [exact Hlex|].
  intros cx L line byte He Hat. destruct (Hparse cx L line byte He Hat) as (cc & ln & b & E & Hcall & H1 & H2 & H3 & H4 & _).
  assert (ET : T = o ++ (ra ++ f ++ u ++ gz) ++ tilde (tl_after m) ++ cl) by (subst T; rewrite Era, <- !app_assoc; reflexivity).
  destruct (tag_ends (px_src cx) cc o (ra ++ f ++ u ++ gz) (tilde (tl_after m) ++ cl) q) as (E1 & E2 & E3 & E4).
  { now rewrite <- ET. } { exact H1. } { rewrite H2, <- ET. rewrite Era, <- !app_assoc. reflexivity. }
  destruct (stmt_ends tr m o T Ho) as (S1 & S2); [rewrite ET; eexists; reflexivity|exact Hst|].
  exists (NStmt cc), ln, b. split; [|split; [exact H4|]].
  - apply isN_call with (u := T).
    + exact Hcall.
    + unfold call_is_escaped. rewrite E1. now rewrite S1.
    + cbn [node_trim]. unfold call_trim_before, call_trim_after. rewrite E1, E2. cbn [hint2]. rewrite S2, closer_ends by exact Hcl. reflexivity.
    + rewrite E3, <- ET. reflexivity.
    + exact Hw.
  - intros fu stk. rewrite advance_eq. cbn [t_kind is_newline is_text f_p f_stack f_next].
    change (tspan (Tok (TBlock BStartStatement) q (q + blen o))) with (q, q + blen o). rewrite E. reflexivity.
Qed.

Lemma dyn_leaf ly pe (tr : bool) m p c xs hs s : callx_ok pe c -> args_ok pe xs hs -> item_writes ly (IDyn tr m p c xs hs) s -> leaf_good ly pe (IDyn tr m p c xs hs) s.
Proof.
  intros Hc Hargs Hw q.
  assert (Hws : tag_around ly (if tr then "{{{" else "{{") m [] p (dyn_writes ly c xs hs) (if tr then "}}}" else "}}") s /\ tilde_sticks (if tr then "{{{" else "{{") m s)
    by (inversion Hw; subst; split; assumption).
  destruct Hws as [(a & f & u & z & -> & Ha & Hf & Hu & (gz & -> & Hgz)) Hst]. apply partial_pre in Hf. apply around_gap in Hgz.
  set (l := if tr then "{{{"%string else "{{"%string) in *. set (cl := lit (if tr then "}}}" else "}}")).
  assert (Hin : In (l, [], BStartStatement) opens) by (subst l; destruct tr; cbn; tauto).
  assert (Hcl : In cl closers) by (subst cl; destruct tr; cbn; tauto).
  destruct (open_body ly pe l [] BStartStatement m a f p false _ u gz (tl_after m) cl Hin Ha Hf (dyn_body_good ly pe c xs hs u Hu Hc Hargs) Hgz Hcl q) as (o & ts & Ho & (ra & Era) & Hlex & Hlen & Hparse).
  unfold close_tag in *. fold cl in Hw, Hst |- *. set (T := a ++ f ++ u ++ gz ++ tilde (tl_after m) ++ cl) in *.
  exists BStartStatement, (q + blen o), ts. split; [reflexivity|]. split; [exact Hlex|].
  intros cx L line byte He Hat. destruct (Hparse cx L line byte He Hat) as (cc & ln & b & E & (tg & vs & ps & lns & Ecc & Hbody)).
  assert (Hcall : dyn_is ly pe (px_src cx) p cc c xs hs) by (rewrite Ecc; apply Hbody).
  assert (H1 : c_open cc = (q, q + blen o)) by (now rewrite Ecc). assert (H4 : c_conditional cc = false) by (now rewrite Ecc).
  assert (H2 : c_close cc = Some (q + blen (a ++ f ++ u ++ gz), q + blen T)) by (now rewrite Ecc). clear Ecc.
  assert (ET : T = o ++ (ra ++ f ++ u ++ gz) ++ tilde (tl_after m) ++ cl) by (subst T; rewrite Era, <- !app_assoc; reflexivity).
  destruct (tag_ends (px_src cx) cc o (ra ++ f ++ u ++ gz) (tilde (tl_after m) ++ cl) q) as (E1 & E2 & E3 & E4).
  { now rewrite <- ET. } { exact H1. } { rewrite H2, <- ET. rewrite Era, <- !app_assoc. reflexivity. }
  destruct (stmt_ends tr m o T Ho) as (S1 & S2); [rewrite ET; eexists; reflexivity|exact Hst|].
  exists (NStmt cc), ln, b. split; [|split; [exact H4|]].
  - apply isN_dyn with (u := T).
    + exact Hcall.
    + unfold call_is_escaped. rewrite E1. now rewrite S1.
    + cbn [node_trim]. unfold call_trim_before, call_trim_after. rewrite E1, E2. cbn [hint2]. rewrite S2, closer_ends by exact Hcl. reflexivity.
    + rewrite E3, <- ET. reflexivity.
    + exact Hw.
  - intros fu stk. rewrite advance_eq. cbn [t_kind is_newline is_text f_p f_stack f_next].
    change (tspan (Tok (TBlock BStartStatement) q (q + blen o))) with (q, q + blen o). rewrite E. reflexivity.
Qed.

(** ** Comments and escaped statements *)
Lemma until_end stop kt kn ke s p e0 L line byte : stop kt = false -> stop kn = false -> stop ke = true ->
  exists line' byte', until stop (p, p) (ctoks kt kn p s ++ Tok ke (p + blen s) e0 :: L) line byte
    = ((p, p + blen s), Some (Tok ke (p + blen s) e0), mkPst L line' byte').
Proof.
  intros H1 H2 H3. destruct (until_ctoks stop kt kn s H1 H2 (p, p) p (Tok ke (p + blen s) e0 :: L) line byte eq_refl) as (l1 & b1 & E1).
  rewrite E1. destruct (until_stops stop (p, p + blen s) (Tok ke (p + blen s) e0 :: L) l1 b1 H3) as (l2 & E2).
  exists l2, b1. exact E2.
Qed.
Lemma plain_leaf ly pe i o k s m f E c (wrap : text_block -> node) stop :
  item_text i = o ++ s ++ c -> blen o = length o -> length c = blen c -> is_text (TBlock k) = false -> is_newline (TBlock k) = false ->
  (forall rest, next_token MBlock (o ++ s ++ c ++ rest) (TBlock k) (length o)) ->
  next_mode (TBlock k) = m -> plain_mode m f E ->
  (forall rest, nobrace rest -> next_token m (c ++ rest) (f PEnd) (length c)) ->
  (forall rest a x b n, s = a ++ x :: b -> ~ pat_match E (x :: b ++ c ++ rest) n) ->
  stop (f PText) = false -> stop (f PNewline) = false -> stop (f PEnd) = true ->
  (forall t, unconditional (wrap t)) ->
  (forall src t, text_str src (tb_text t) = Some s -> text_block_str src t = Some (item_text i) -> node_is ly pe src (wrap t) i) ->
  (forall cx t fs fuel, t_kind t = TBlock k -> advance (S fuel) cx t fs =
     match fst (text_until stop (tspan t) (f_p fs)) with
     | Some r => POk (Some (wrap (fst r))) (mkF (snd (text_until stop (tspan t) (f_p fs))) (f_stack fs) (f_next fs))
     | None => advance (S fuel) cx t fs
     end) ->
  leaf_good ly pe i (item_text i).
Proof.
  intros Et Ho Hcb Hnt Hnl Hopen Hm Hpm Hend Hclear S1 S2 S3 Hunc Hnode Hadv p.
  exists k, (p + blen o), (ctoks (f PText) (f PNewline) (p + blen o) s ++ [Tok (f PEnd) (p + blen o + blen s) (p + blen o + blen s + blen c)]).
  split; [exact Hnt|]. split.
  - intros rest L Hr HL. rewrite Et. eapply (tkz _ _ o (s ++ c ++ rest)); [now rewrite <- !app_assoc|apply Hopen|reflexivity|].
    rewrite Hm, <- app_assoc. eapply plain_lex; [exact Hpm| |].
    + intros a x b n Hs. eapply Hclear. exact Hs.
    + cbn [app]. eapply (tkz _ _ c); [reflexivity|now apply Hend|reflexivity|].
      replace (next_mode (f PEnd)) with MBlock by (destruct Hpm as [(-> & -> & ->)|[(-> & -> & ->)|(-> & -> & ->)]]; reflexivity).
      rewrite Et, !blen_app in HL. replace (p + blen o + blen s + blen c) with (p + (blen o + (blen s + blen c))) by lia. exact HL.
  - intros cx L line byte He Hat. rewrite Et in Hat.
    destruct (until_end stop (f PText) (f PNewline) (f PEnd) s (p + blen o) (p + blen o + blen s + blen c) L line byte S1 S2 S3) as (l' & b' & Eu).
    set (fs0 := fun stk => mkF (mkPst ((ctoks (f PText) (f PNewline) (p + blen o) s ++ [Tok (f PEnd) (p + blen o + blen s) (p + blen o + blen s + blen c)]) ++ L) line byte) stk None).
    set (tb := mkTextBlock (mkText (p + blen o, p + blen o + blen s) (line, l' + 1)) (p, p + blen o) (p + blen o + blen s, p + blen o + blen s + blen c)).
    exists (wrap tb), l', b'. split; [|split; [apply Hunc|]].
    + apply Hnode.
      * unfold text_str. cbn [tb tb_text tx_span]. apply (at_sl _ _ s); [|reflexivity]. apply at_r in Hat. now apply at_l in Hat.
      * unfold text_block_str. cbn [tb tb_open tb_close fst snd]. rewrite Et. apply slice_between; [exact Hat|]. rewrite !blen_app. lia.
    + intros fuel stk. rewrite Hadv by reflexivity. cbn [f_p f_stack f_next]. unfold text_until. cbn [p_toks p_line p_byte].
      change (tspan (Tok (TBlock k) p (p + blen o))) with (p, p + blen o). cbn [snd].
      rewrite <- app_assoc. cbn [app]. rewrite Eu. cbn [fst snd line_range p_line]. reflexivity.
Qed.
Lemma comment_leaf ly pe s : ~ occurs (lit "}}") s -> ~ ends_in [125]%N s -> (forall r, s <> lit "--" ++ r) -> leaf_good ly pe (IComment s) (item_text (IComment s)).
Proof.
  intros H1 H2 H3. eapply (plain_leaf ly pe _ (lit "{{!") BStartComment s MComment TComment (ch "}}") (lit "}}") NComment is_end_comment); try reflexivity.
  - intros rest. apply next_comment. intros r E. destruct s as [|a s]; [discriminate|]. destruct s as [|b s]; [cbn in E; discriminate|].
    cbn in E. injection E as -> -> E. now apply (H3 s).
  - now right; right.
  - intros rest _. apply next_comment_end.
  - intros. eapply comment_clear; eassumption.
  - intros. now apply isN_comment.
  - intros cx t fs fuel Hk. rewrite advance_eq. rewrite Hk. cbn [is_newline is_text]. unfold comment.
    destruct (text_until is_end_comment (tspan t) (f_p fs)) as [[[tb x]|] st]; reflexivity.
Qed.
Lemma raw_comment_leaf ly pe s : ~ occurs (lit "--}}") s -> leaf_good ly pe (IRawComment s) (item_text (IRawComment s)).
Proof.
  intros H1. eapply (plain_leaf ly pe _ (lit "{{!--") BStartRawComment s MRawComment TRawComment (ch "--}}") (lit "--}}") NRawComment is_end_raw_comment); try reflexivity.
  - intros rest. apply next_raw_comment.
  - now left.
  - intros rest _. apply next_raw_comment_end.
  - intros. eapply raw_comment_clear; eassumption.
  - intros. now apply isN_raw_comment.
  - intros cx t fs fuel Hk. rewrite advance_eq. rewrite Hk. cbn [is_newline is_text]. unfold raw_comment.
    destruct (text_until is_end_raw_comment (tspan t) (f_p fs)) as [[[tb x]|] st]; reflexivity.
Qed.
Lemma escaped_leaf ly pe s : ~ occurs (lit "}}") s -> ~ ends_in [125; 126]%N s -> ~ begins_with 123%N s -> leaf_good ly pe (IEscaped s) (item_text (IEscaped s)).
Proof.
  intros H1 H2 H3. eapply (plain_leaf ly pe _ (lit "\{{") BStartRawStatement s MRawStatement TRawStatement _ (lit "}}") NRawStmt is_end_raw_statement); try reflexivity.
  - intros rest. apply next_escaped. intros [r E]. destruct s as [|a s]; [discriminate|]. cbn in E. injection E as -> E. apply H3. now exists s.
  - right. left. split; [reflexivity|]. split; reflexivity.
  - intros rest Hr. now apply next_escaped_end.
  - intros. eapply escaped_clear; eassumption.
  - intros. now apply isN_escaped.
  - intros cx t fs fuel Hk. rewrite advance_eq. rewrite Hk. cbn [is_newline is_text]. unfold raw_statement.
    destruct (text_until is_end_raw_statement (tspan t) (f_p fs)) as [[[tb x]|] st]; reflexivity.
Qed.

(** ** Links *)
Lemma lex_end p w rest ts L : part_read false w p ts \/ part_read true w p ts -> tokenizes MBlock (p + blen w + 2) rest L ->
  tokenizes MLink p (w ++ lit "]]" ++ rest) (ts ++ Tok (TLink LEnd) (p + blen w) (p + blen w + 2) :: L).
Proof.
  intros Hr HL. assert (Hx : forall d rest L, In d [124; 93]%N -> tokenizes MLink (p + blen w) (d :: rest) L -> tokenizes MLink p (w ++ d :: rest) (ts ++ L))
    by (destruct Hr as [(H & _)|(H & _)]; exact H).
  apply (Hx 93%N (93%N :: rest)); [cbn; tauto|]. apply (tkz _ _ (lit "]]") rest); [reflexivity|apply next_lend|reflexivity|exact HL].
Qed.
Lemma lex_pipe p w rest ts L : part_read false w p ts -> tokenizes MLink (p + blen w + 1) rest L ->
  tokenizes MLink p (w ++ lit "|" ++ rest) (ts ++ Tok (TLink LPipe) (p + blen w) (p + blen w + 1) :: L).
Proof.
  intros (Hx & _) HL. apply (Hx 124%N rest); [cbn; tauto|]. apply (tkz _ _ (lit "|") rest); [reflexivity|apply next_lpipe|reflexivity|exact HL].
Qed.
Lemma advance_link f cx p e ts L line byte stk l b' : link_href_go cx (link_new (p, e) (line, line + 1)) ef_none (ts ++ L) line e = POk l (mkPst L line b') ->
  lk_close l <> None -> lk_line l = (line, line + 1) ->
  advance (S f) cx (Tok (TBlock BStartLink) p e) (mkF (mkPst (ts ++ L) line byte) stk None) = POk (Some (NLink l)) (mkF (mkPst L line b') stk None).
Proof.
  intros H Hc Hl. rewrite advance_eq. cbn [t_kind is_newline is_text f_p f_stack f_next]. unfold link_parse.
  unfold set_byte. cbn [p_toks p_line p_byte snd tspan t_start t_end]. unfold line_range. cbn [p_line]. unfold tspan. cbn [t_start t_end snd].
  rewrite H. destruct l as [o c ln hs ls tss h la ti]. cbn [lk_close lk_line] in *. subst ln. destruct c; [reflexivity|congruence].
Qed.
Lemma link_leaf ly pe esc parts : link_parts_ok parts -> leaf_good ly pe (ILink esc parts) (item_text (ILink esc parts)).
Proof.
  intros Hp p. set (o := (if esc then [92%N] else []) ++ lit "[[").
  assert (Hob : blen o = length o) by (subst o; destruct esc; reflexivity).
  assert (Et : item_text (ILink esc parts) = o ++ link_text parts ++ lit "]]") by (subst o; cbn [item_text]; now rewrite <- !app_assoc).
  assert (Hall : exists ts, (forall rest L, tokenizes MBlock (p + blen o + blen (link_text parts ++ lit "]]")) rest L ->
      tokenizes MLink (p + blen o) ((link_text parts ++ lit "]]") ++ rest) (ts ++ L))
    /\ forall cx L line, at_ (px_src cx) (p + blen o) (link_text parts ++ lit "]]") ->
       exists c1 hs lb ti h la t' b', let l := mkLink (p, p + blen o) (Some (c1, p + blen (o ++ link_text parts ++ lit "]]"))) (line, line + 1) hs lb ti h la t' in
         link_href_go cx (link_new (p, p + blen o) (line, line + 1)) ef_none (ts ++ L) line (p + blen o) = POk l (mkPst L line b')
         /\ link_href (px_src cx) l = Some (link_arg parts 0) /\ link_label (px_src cx) l = Some (link_arg parts 1)
         /\ link_title (px_src cx) l = Some (link_arg parts 2)).
  { assert (Hz : forall src w, at_ src (p + blen o) w -> sl src (p + blen o, p + blen o) = Some []).
    { intros src w H. apply (at_sl _ _ []); [|cbn; lia]. apply (at_l _ _ [] w). exact H. }
    destruct parts as [|w1 [|w2 [|w3 [|]]]]; try (exfalso; exact Hp); unfold link_parts_ok in Hp; unfold link_text; cbn [join].
    - destruct (part_reads _ _ Hp (p + blen o)) as (t1 & R1).
      set (e := p + blen o) in *. set (e1 := e + blen w1). exists (t1 ++ [Tok (TLink LEnd) e1 (e1 + 2)]). split.
      + intros rest L HL. rewrite <- !app_assoc. apply lex_end; [left; exact R1|]. rewrite blen_app, Nat.add_assoc in HL. exact HL.
      + intros cx L line Hat. destruct R1 as (_ & Rh & _). specialize (Rh eq_refl cx (link_new (p, e) (line, line + 1)) ef_none (Tok (TLink LEnd) e1 (e1 + 2) :: L) line e).
        destruct Rh as (b & Rh). unfold link_new in *. unfold link_set_href_span in Rh. cbn [snd fst lk_href_span lk_open lk_close lk_line lk_label_span lk_title_span lk_href lk_label lk_title] in Rh.
        rewrite href_end in Rh; [|exact Hp|exact (at_l _ _ _ _ Hat)|reflexivity].
        exists e1, (e, lend w1 e e), (e, e), (e, e), (lown w1), None, None, (e1 + 2 - 1). cbv zeta.
        match goal with |- context [p + blen ?X] => replace (p + blen X) with (e1 + 2) end; [|unfold link_text; cbn [join]; subst e1 e; rewrite !blen_app; change (blen (lit "]]")) with 2; lia].
        split; [rewrite <- app_assoc; exact Rh|]. unfold link_href, link_label, link_title, link_arg. cbn [lk_href lk_label lk_title lk_href_span lk_label_span lk_title_span nth].
        split; [|split; exact (Hz _ _ Hat)]. eapply lown_value; [exact Hp|exact (at_l _ _ _ _ Hat)|now right].
    - destruct Hp as (P1 & P2 & N2). set (e := p + blen o) in *. set (e1 := e + blen w1). set (e2 := e1 + 1 + blen w2).
      destruct (part_reads _ _ P1 e) as (t1 & R1). destruct (part_reads _ _ P2 (e1 + 1)) as (t2 & R2).
      exists ((t1 ++ [Tok (TLink LPipe) e1 (e1 + 1)]) ++ t2 ++ [Tok (TLink LEnd) e2 (e2 + 2)]). split.
      + intros rest L HL. rewrite <- !app_assoc. apply lex_pipe; [exact R1|]. apply lex_end; [left; exact R2|].
        replace (e + blen w1 + 1 + blen w2 + 2) with (e + blen ((w1 ++ [124%N] ++ w2) ++ lit "]]")); [exact HL|].
        rewrite !blen_app. change (blen [124%N]) with 1. change (blen (lit "]]")) with 2. lia.
      + intros cx L line Hat. rewrite <- !app_assoc in Hat. pose proof (at_l _ _ _ _ Hat) as A1. pose proof (at_l _ _ _ _ (at_r _ _ _ _ (at_r _ _ _ _ Hat))) as A2.
        change (at_ (px_src cx) (e1 + 1) w2) in A2.
        destruct R1 as (_ & Rh & _). specialize (Rh eq_refl cx (link_new (p, e) (line, line + 1)) ef_none (Tok (TLink LPipe) e1 (e1 + 1) :: t2 ++ Tok (TLink LEnd) e2 (e2 + 2) :: L) line e).
        destruct Rh as (b & Rh). unfold link_new in *. unfold link_set_href_span in Rh. cbn [snd fst lk_href_span lk_open lk_close lk_line lk_label_span lk_title_span lk_href lk_label lk_title] in Rh.
        rewrite href_pipe in Rh; [|exact P1|exact A1|reflexivity]. cbn [snd] in Rh.
        destruct R2 as (_ & _ & Rl & _). specialize (Rl eq_refl cx (mkLink (p, e) None (line, line + 1) (e, lend w1 e e) (e1 + 1, e) (e, e) (lown w1) None None) ef_none (Tok (TLink LEnd) e2 (e2 + 2) :: L) line (e1 + 1 - 1)).
        destruct Rl as (b2 & Rl). rewrite Rl in Rh. unfold link_set_label_span in Rh. cbn [snd fst lk_href_span lk_open lk_close lk_line lk_label_span lk_title_span lk_href lk_label lk_title] in Rh.
        rewrite label_end in Rh; [|exact P2|exact A2|reflexivity].
        exists e2, (e, lend w1 e e), (e1 + 1, lend w2 (e1 + 1) e), (e, e), (lown w1), (lown w2), None, (e2 + 2 - 1). cbv zeta.
        match goal with |- context [p + blen ?X] => replace (p + blen X) with (e2 + 2) end; [|unfold link_text; cbn [join]; subst e2 e1 e; rewrite !blen_app; change (blen (lit "]]")) with 2; change (blen [124%N]) with 1; lia].
        split; [rewrite <- !app_assoc; cbn [app]; exact Rh|]. unfold link_href, link_label, link_title, link_arg. cbn [lk_href lk_label lk_title lk_href_span lk_label_span lk_title_span nth].
        split; [|split; [|exact (Hz _ _ Hat)]].
        * eapply lown_value; [exact P1|exact A1|now right].
        * eapply lown_value; [exact P2|exact A2|now left].
    - destruct Hp as (P1 & P2 & P3 & N3). set (e := p + blen o) in *. set (e1 := e + blen w1). set (e2 := e1 + 1 + blen w2). set (e3 := e2 + 1 + blen w3).
      destruct (part_reads _ _ P1 e) as (t1 & R1). destruct (part_reads _ _ P2 (e1 + 1)) as (t2 & R2). destruct (part_reads _ _ P3 (e2 + 1)) as (t3 & R3).
      exists ((t1 ++ [Tok (TLink LPipe) e1 (e1 + 1)]) ++ (t2 ++ [Tok (TLink LPipe) e2 (e2 + 1)]) ++ t3 ++ [Tok (TLink LEnd) e3 (e3 + 2)]). split.
      + intros rest L HL. rewrite <- !app_assoc. apply lex_pipe; [exact R1|]. apply lex_pipe; [exact R2|]. apply lex_end; [right; exact R3|].
        replace (e + blen w1 + 1 + blen w2 + 1 + blen w3 + 2) with (e + blen ((w1 ++ [124%N] ++ w2 ++ [124%N] ++ w3) ++ lit "]]")); [exact HL|].
        rewrite !blen_app. change (blen [124%N]) with 1. change (blen (lit "]]")) with 2. lia.
      + intros cx L line Hat. rewrite <- !app_assoc in Hat. pose proof (at_l _ _ _ _ Hat) as A1. pose proof (at_r _ _ _ _ (at_r _ _ _ _ Hat)) as Hat2.
        pose proof (at_l _ _ _ _ Hat2) as A2. change (at_ (px_src cx) (e1 + 1) w2) in A2.
        pose proof (at_l _ _ _ _ (at_r _ _ _ _ (at_r _ _ _ _ Hat2))) as A3. change (at_ (px_src cx) (e2 + 1) w3) in A3.
        destruct R1 as (_ & Rh & _). specialize (Rh eq_refl cx (link_new (p, e) (line, line + 1)) ef_none (Tok (TLink LPipe) e1 (e1 + 1) :: t2 ++ Tok (TLink LPipe) e2 (e2 + 1) :: t3 ++ Tok (TLink LEnd) e3 (e3 + 2) :: L) line e).
        destruct Rh as (b & Rh). unfold link_new in *. unfold link_set_href_span in Rh. cbn [snd fst lk_href_span lk_open lk_close lk_line lk_label_span lk_title_span lk_href lk_label lk_title] in Rh.
        rewrite href_pipe in Rh; [|exact P1|exact A1|reflexivity]. cbn [snd] in Rh.
        destruct R2 as (_ & _ & Rl & _). specialize (Rl eq_refl cx (mkLink (p, e) None (line, line + 1) (e, lend w1 e e) (e1 + 1, e) (e, e) (lown w1) None None) ef_none (Tok (TLink LPipe) e2 (e2 + 1) :: t3 ++ Tok (TLink LEnd) e3 (e3 + 2) :: L) line (e1 + 1 - 1)).
        destruct Rl as (b2 & Rl). rewrite Rl in Rh. unfold link_set_label_span in Rh. cbn [snd fst lk_href_span lk_open lk_close lk_line lk_label_span lk_title_span lk_href lk_label lk_title] in Rh.
        rewrite label_pipe in Rh; [|exact P2|exact A2|reflexivity]. cbn [snd] in Rh.
        destruct R3 as (_ & _ & _ & Rt). specialize (Rt cx (mkLink (p, e) None (line, line + 1) (e, lend w1 e e) (e1 + 1, e1 + 1 + blen w2) (e2 + 1, e) (lown w1) (lown w2) None) ef_none (Tok (TLink LEnd) e3 (e3 + 2) :: L) line (e2 + 1 - 1)).
        destruct Rt as (b3 & Rt). rewrite Rt in Rh. unfold link_set_title_span in Rh. cbn [snd fst lk_href_span lk_open lk_close lk_line lk_label_span lk_title_span lk_href lk_label lk_title] in Rh.
        rewrite title_end in Rh; [|exact P3|exact A3|reflexivity].
        exists e3, (e, lend w1 e e), (e1 + 1, e1 + 1 + blen w2), (e2 + 1, lend w3 (e2 + 1) e), (lown w1), (lown w2), (lown w3), (e3 + 2 - 1). cbv zeta.
        match goal with |- context [p + blen ?X] => replace (p + blen X) with (e3 + 2) end; [|unfold link_text; cbn [join]; subst e3 e2 e1 e; rewrite !blen_app; change (blen (lit "]]")) with 2; change (blen [124%N]) with 1; lia].
        split; [rewrite <- !app_assoc; cbn [app]; exact Rh|]. unfold link_href, link_label, link_title, link_arg. cbn [lk_href lk_label lk_title lk_href_span lk_label_span lk_title_span nth].
        split; [|split].
        * eapply lown_value; [exact P1|exact A1|now right].
        * eapply lown_whole; [exact P2|exact A2].
        * eapply lown_value; [exact P3|exact A3|now left]. }
  destruct Hall as (ts & Hlex & Hparse).
  exists BStartLink, (p + blen o), ts. split; [reflexivity|]. split.
  - intros rest L Hr HL. rewrite Et in *. eapply (tkz _ _ o); [now rewrite <- app_assoc|apply next_link|reflexivity|].
    cbn [next_mode]. apply Hlex. rewrite blen_app, Nat.add_assoc in HL. exact HL.
  - intros cx L line byte He Hat. rewrite Et in Hat. pose proof (at_l _ _ _ _ Hat) as Hato. pose proof (at_r _ _ _ _ Hat) as Hatb.
    assert (Hesc : starts_with [92%N] o = esc) by (subst o; destruct esc; reflexivity).
    assert (Haft : esc = true -> at_ (px_src cx) (p + 1) (item_text (ILink false parts))).
    { intros ->. subst o. rewrite <- app_assoc in Hat. apply at_r in Hat. cbn [item_text app]. exact Hat. }
    destruct (Hparse cx L line Hatb) as (c1 & hs & lb & ti & h & la & t' & b' & Hgo & E1 & E2 & E3).
    set (l := mkLink _ _ _ _ _ _ _ _ _) in *. exists (NLink l), line, b'. split; [|split; [exact I|]].
    + apply isN_link. unfold link_is. split; [|split; [|split; [|tauto]]].
      * unfold link_is_escaped. subst l. cbn [lk_open]. now rewrite (at_sl _ _ o _ Hato eq_refl), Hesc.
      * unfold link_str, link_close_end. subst l. cbn [lk_open lk_close fst snd]. rewrite Et. now apply at_slice.
      * intros Ee. specialize (Haft Ee). unfold link_after_escape, link_close_end. subst l. cbn [lk_open lk_close fst snd].
        apply slice_between; [exact Haft|]. unfold o. rewrite Ee. cbn [item_text]. cbv iota. rewrite !blen_app.
        change (blen [92%N]) with 1. change (blen []) with 0. lia.
    + intros f stk. apply advance_link; [exact Hgo|discriminate|reflexivity].
Qed.

(** ** Trim markers of blocks *)
Lemma tilde_at_app a z b : clen z = 1 -> tilde_at (a ++ [z] ++ b) (blen a) = Some (N.eqb z 126).
Proof.
  intros Hz. unfold tilde_at. replace (blen a <? blen (a ++ [z] ++ b)) with true by (symmetry; apply Nat.ltb_lt; rewrite !blen_app; cbn [blen]; lia).
  replace (blen a + 1) with (blen a + blen [z]) by (cbn [blen]; lia). rewrite slice_mid. cbn [streq]. now rewrite andb_true_r.
Qed.
Lemma close_hint src b l r b1 b2 v0 V V' vz : block_close_str src b = Some (l ++ tilde b1 ++ (v0 :: V) ++ tilde b2 ++ r) -> v0 :: V = V' ++ [vz] ->
  blen l = (if b_raw b then 4 else 2) -> blen r = (if b_raw b then 4 else 2) -> clen v0 = 1 -> v0 <> 126%N -> clen vz = 1 -> vz <> 126%N ->
  block_trim_close src b = Some (mkHint b1 b2).
Proof.
  intros Hs HV Hl Hr Hz0 Hn0 Hz Hn. unfold block_trim_close, block_trim_before_close, block_trim_after_close. rewrite Hs.
  assert (E1 : tilde_at (l ++ tilde b1 ++ (v0 :: V) ++ tilde b2 ++ r) (if b_raw b then 4 else 2) = Some b1).
  { rewrite <- Hl. destruct b1; cbn [tilde].
    - rewrite (tilde_at_app l 126%N); reflexivity.
    - cbn [app]. change (l ++ v0 :: V ++ tilde b2 ++ r) with (l ++ [v0] ++ V ++ tilde b2 ++ r). rewrite (tilde_at_app l v0 _ Hz0).
      apply N.eqb_neq in Hn0. now rewrite Hn0. }
  rewrite E1. cbn [hint2].
  assert (E2 : exists u, l ++ tilde b1 ++ (v0 :: V) ++ tilde b2 ++ r = u ++ [if b2 then 126%N else vz] ++ r /\ (0 <? blen u) = true).
  { destruct b2; cbn [tilde].
    - exists (l ++ tilde b1 ++ (v0 :: V)). split; [now rewrite <- !app_assoc|]. apply Nat.ltb_lt. rewrite blen_app, Hl. destruct (b_raw b); lia.
    - exists (l ++ tilde b1 ++ V'). split; [rewrite HV; now rewrite <- !app_assoc|]. apply Nat.ltb_lt. rewrite blen_app, Hl. destruct (b_raw b); lia. }
  destruct E2 as (u & -> & Eu).
  assert (Hb : blen (u ++ [if b2 then 126%N else vz] ++ r) = blen u + 1 + (if b_raw b then 4 else 2)).
  { rewrite !blen_app, Hr. cbn [blen]. destruct b2; [change (clen 126%N) with 1|rewrite Hz]; lia. }
  rewrite Hb.
  replace ((if b_raw b then 5 else 3) <? blen u + 1 + (if b_raw b then 4 else 2)) with true by (symmetry; apply Nat.ltb_lt; apply Nat.ltb_lt in Eu; destruct (b_raw b); lia).
  replace (blen u + 1 + (if b_raw b then 4 else 2) - (if b_raw b then 5 else 3)) with (blen u) by (destruct (b_raw b); lia).
  replace (blen u + 1) with (blen u + blen [if b2 then 126%N else vz]) by (cbn [blen]; destruct b2; [reflexivity|lia]).
  rewrite slice_mid.
  assert (Hv : streq [if b2 then 126%N else vz] [126%N] = b2).
  { cbn [streq]. rewrite andb_true_r. destruct b2; [reflexivity|]. now apply N.eqb_neq. }
  rewrite Hv. reflexivity.
Qed.
Lemma gap_char c : In c [32; 9; 10]%N -> clen c = 1 /\ c <> 126%N.
Proof. cbn. intros [<-|[<-|[<-|[]]]]; split; try reflexivity; discriminate. Qed.
(** the characters around the markers of a closing tag *)
Lemma close_chars g g' w gz a z : blank_str g -> gap_str gz -> w = a ++ [z] -> clen z = 1 -> z <> 126%N ->
  exists v0 V V' vz, g ++ [47%N] ++ g' ++ w ++ gz = v0 :: V /\ v0 :: V = V' ++ [vz] /\ clen v0 = 1 /\ v0 <> 126%N /\ clen vz = 1 /\ vz <> 126%N.
Proof.
  intros Hg Hgz -> Hz Hn.
  assert (H0 : exists v0 V, g ++ [47%N] ++ g' ++ (a ++ [z]) ++ gz = v0 :: V /\ clen v0 = 1 /\ v0 <> 126%N).
  { destruct g as [|c g]; [exists 47%N; eexists; split; [reflexivity|]; split; [reflexivity|discriminate]|].
    exists c. eexists. split; [reflexivity|]. specialize (Hg c (or_introl eq_refl)). apply gap_char. cbn in Hg |- *. tauto. }
  destruct H0 as (v0 & V & E0 & H1 & H2). exists v0, V. rewrite <- E0.
  destruct (rev gz) as [|c rz] eqn:Er.
  - assert (gz = []) by (apply (f_equal (@rev _)) in Er; rewrite rev_involutive in Er; exact Er). subst gz.
    exists (g ++ [47%N] ++ g' ++ a), z. repeat split; try assumption. now rewrite app_nil_r, <- !app_assoc.
  - assert (Eg : gz = rev rz ++ [c]) by (apply (f_equal (@rev _)) in Er; rewrite rev_involutive in Er; exact Er).
    exists (g ++ [47%N] ++ g' ++ (a ++ [z]) ++ rev rz), c. split; [reflexivity|]. split; [rewrite Eg; now rewrite <- !app_assoc|]. split; [assumption|]. split; [assumption|].
    apply gap_char. apply Hgz. rewrite Eg. apply in_or_app. right. now left.
Qed.
Lemma close_tag_hint ly src b l r m' w a z s : close_writes ly l m' w r s -> block_close_str src b = Some s ->
  blen (lit l) = (if b_raw b then 4 else 2) -> blen (lit r) = (if b_raw b then 4 else 2) -> w = a ++ [z] -> clen z = 1 -> z <> 126%N ->
  block_trim_close src b = Some (hint_of m').
Proof.
  intros (x & y & -> & (g & g' & -> & Hg & _) & (gz & -> & Hgz)) Hs Hl Hr Hw Hz Hn. apply blank_gap_str in Hg. apply around_gap in Hgz.
  destruct (close_chars g g' w gz a z Hg Hgz Hw Hz Hn) as (v0 & V & V' & vz & E0 & E1 & A1 & A2 & A3 & A4).
  unfold hint_of. eapply (close_hint src b (lit l) (lit r) (tl_before m') (tl_after m') v0 V V' vz); try eassumption.
  rewrite Hs. f_equal. rewrite <- E0. unfold open_tag, close_tag. rewrite <- !app_assoc. reflexivity.
Qed.
Lemma block_open_hint l m mark o (k : nat) : opener l m mark o -> In mark [[]; [35%N]] -> blen (lit l) = k -> tilde_at o k = Some (tl_before m).
Proof.
  intros (b & -> & Hb) Hm <-. unfold open_tag. rewrite <- app_assoc. destruct (tl_before m); cbn [tilde].
  - rewrite (tilde_at_app (lit l) 126%N); reflexivity.
  - cbn [app]. destruct b as [|c b].
    + rewrite app_nil_r. unfold tilde_at. now rewrite Nat.ltb_irrefl.
    + change (lit l ++ c :: b) with (lit l ++ [c] ++ b). specialize (Hb c (or_introl eq_refl)).
      assert (Hc : clen c = 1 /\ (c =? 126)%N = false) by (cbn in Hm; destruct Hm as [<-|[<-|[]]]; cbn in Hb; repeat (destruct Hb as [<-|Hb]; [split; reflexivity|]); contradiction).
      destruct Hc as [C1 C2]. rewrite (tilde_at_app (lit l) c _ C1). now rewrite C2.
Qed.

Lemma name_last w a z : name_ok w -> w = a ++ [z] -> z <> 126%N.
Proof.
  intros (_ & Hi & _)%name_in ->. rewrite forallb_app in Hi. apply andb_true_iff in Hi. destruct Hi as [_ Hi]. cbn [forallb] in Hi.
  intros ->. vm_compute in Hi. discriminate.
Qed.

(** ** Raw blocks *)
Definition closing (w : str) : callx := Call (HdName w) [] [] [].
Lemma closing_writes ly w : call_writes ly (closing w) w.
Proof. pose proof (w_call ly (HdName w) [] [] [] [] [] (w_args_nil ly) (w_hash_nil ly)) as H. unfold path_text in H. cbn [head_text tail_text] in H. rewrite !app_nil_r in H. exact H. Qed.
(** what stands inside a raw block: read as tokens on its own, none of them a closing raw tag *)
Definition raw_content (s : str) : Prop :=
  (forall rest, nobrace rest -> nobrace (s ++ rest)) /\ ~ occurs (lit "{{{{") s
  /\ forall p, exists ts, forall rest L, nobrace rest -> tokenizes MBlock (p + blen s) rest L -> tokenizes MBlock p (s ++ rest) (ts ++ L).
Lemma end_raw_starts m s n : next_token m s (TBlock BEndRawBlock) n -> exists t, firstn n s = lit "{{{{" ++ t.
Proof.
  intros [(hi & r & lo & E & (_ & Hl) & _)|(_ & E & _)]; [|destruct m; discriminate].
  assert (Hin : In (r, TBlock BEndRawBlock) (pats m)) by (rewrite E; apply in_or_app; right; now left). clear E.
  destruct m; cbn in Hin; repeat (destruct Hin as [Hin|Hin]; [try discriminate Hin|]); try contradiction.
  injection Hin as <-. apply lang_cat_iff in Hl. destruct Hl as (s1 & s2 & E & H1 & _). pose proof (proj1 (lang_lit (lit "{{{{") s1) H1) as X. rewrite X in E. exists s2. exact E.
Qed.
Lemma tokens_all ts : forall m p w, tokenizes m p w ts ->
  (forall x, In x ts -> t_kind x = TBlock BEndRawBlock -> occurs (lit "{{{{") w)
  /\ forall stop sp L line byte, (forall x, In x ts -> stop (t_kind x) = false) -> snd sp = p ->
       exists line' byte', until stop sp (ts ++ L) line byte = until stop (fst sp, p + blen w) L line' byte'.
Proof.
  induction ts as [|x ts IH]; intros m p w H.
  - inversion H; subst. split; [intros ? []|]. intros stop [a b] L line byte _ E. cbn in E. subst b. exists line, byte. cbn [fst blen app]. now rewrite Nat.add_0_r.
  - inversion H as [|? ? w0 rest k l Hn Hr]; subst. destruct (IH _ _ _ Hr) as (Ho & Hu). split.
    + intros y [<-|Hy] Hk.
      * cbn [t_kind] in Hk. subst k. apply end_raw_starts in Hn. destruct Hn as (r & Er). rewrite firstn_app, firstn_all, Nat.sub_diag in Er. cbn [firstn] in Er. rewrite app_nil_r in Er.
        exists [], (r ++ rest). rewrite Er. cbn [app]. now rewrite <- ?app_assoc.
      * destruct (Ho y Hy Hk) as (a & b & ->). exists (w0 ++ a), b. now rewrite <- app_assoc.
    + intros stop sp L line byte Hs Esp. cbn [app until t_kind t_end].
      pose proof (Hs _ (or_introl eq_refl)) as H0. cbn [t_kind] in H0. rewrite H0.
      edestruct (Hu stop (fst sp, p + blen w0) L) as (l1 & b1 & E1); [intros y Hy; apply Hs; now right|reflexivity|].
      exists l1, b1. rewrite E1. cbn [fst]. rewrite blen_app, Nat.add_assoc. reflexivity.
Qed.
Lemma raw_tokens s p : raw_content s -> exists ts,
  (forall rest L, nobrace rest -> tokenizes MBlock (p + blen s) rest L -> tokenizes MBlock p (s ++ rest) (ts ++ L))
  /\ forall e L line byte, exists line' byte', until is_end_raw_block (p, p) (ts ++ Tok (TBlock BEndRawBlock) (p + blen s) e :: L) line byte
       = ((p, p + blen s), Some (Tok (TBlock BEndRawBlock) (p + blen s) e), mkPst L line' byte').
Proof.
  intros (_ & Hocc & Hlex). destruct (Hlex p) as (ts & Hts). exists ts. split; [exact Hts|].
  pose proof (Hts [] [] I (tkz_nil _ _)) as Ht. rewrite !app_nil_r in Ht. destruct (tokens_all _ _ _ _ Ht) as (Ho & Hu).
  intros e L line byte. destruct (Hu is_end_raw_block (p, p) (Tok (TBlock BEndRawBlock) (p + blen s) e :: L) line byte) as (l1 & b1 & E1); [|reflexivity|].
  - intros x Hx. destruct (is_end_raw_block (t_kind x)) eqn:Ek; [|reflexivity]. exfalso. apply Hocc, (Ho x Hx).
    destruct (t_kind x) as [[]| | | | | | | |]; try discriminate; reflexivity.
  - rewrite E1. destruct (until_stops is_end_raw_block (p, p + blen s) (Tok (TBlock BEndRawBlock) (p + blen s) e :: L) l1 b1 eq_refl) as (l2 & E2).
    exists l2, b1. exact E2.
Qed.
Lemma raw_leaf ly pe c m s m' T : callx_ok pe c -> block_name_ok c -> raw_content s -> item_writes ly (IRaw c m s m') T -> leaf_good ly pe (IRaw c m s m') T.
Proof.
  intros Hc Hb Hs HwT p. destruct c as [h t args hash]. cbn in Hb. destruct h as [w| | | | |]; try contradiction. destruct t; [|contradiction].
  destruct Hb as (a & z & Hw & Hz). set (x := Call (HdName w) [] args hash) in *.
  assert (Hnm : name_ok w) by (subst x; inversion Hc; assumption).
  assert (Hck : callx_ok pe (closing w)) by (constructor; [exact Hnm|constructor|constructor|constructor|constructor]).
  inversion HwT as [| | | | | | | | |? ? ? ? A Z HA HZ| ]; subst. rename A into T1, Z into T2.
  assert (HT2 : exists r, T2 = 123%N :: r) by (destruct HZ as (? & ? & -> & (? & ? & -> & _) & _); eexists; reflexivity).
  pose proof HZ as HZ0. destruct HA as (a1 & f1 & u1 & z1 & -> & Ha1 & Hf1 & Hu1 & (gz1 & -> & Hgz1)). cbn [partial_writes] in Hf1. subst f1.
  destruct HZ as (a2 & z2 & -> & Ha2 & (gz2 & -> & Hgz2)). apply around_gap in Hgz1, Hgz2.
  assert (En : call_name x = a ++ [z]) by (unfold call_name, x, path_text; cbn [head_text tail_text]; now rewrite app_nil_r).
  rewrite En in *. unfold close_tag in *.
  set (T1 := a1 ++ [] ++ u1 ++ gz1 ++ tilde (tl_after m) ++ lit "}}}}") in *. set (w := a ++ [z]) in *. set (T2 := a2 ++ w ++ gz2 ++ tilde (tl_after m') ++ lit "}}}}") in *.
  destruct (open_good ly pe "{{{{" [] BStartRawBlock m a1 [] false false x u1 gz1 (tl_after m) (lit "}}}}")) with (p := p) as (o1 & ts1 & Ho1 & (ra1 & Era1) & Hlex1 & _ & Hparse1);
    [cbn; tauto|exact Ha1|left; auto|exact Hu1|exact Hc|exact Hgz1|cbn; tauto|]. fold T1 in Hlex1, Hparse1.
  set (p1 := p + blen T1) in *. set (p2 := p1 + blen s).
  destruct (open_good ly pe "{{{{" [47%N] BEndRawBlock m' a2 [] false false (closing w) w gz2 (tl_after m') (lit "}}}}")) with (p := p2) as (o2 & ts2 & Ho2 & (ra2 & Era2) & Hlex2 & _ & Hparse2);
    [cbn; tauto|exact Ha2|left; auto|apply closing_writes|exact Hck|exact Hgz2|cbn; tauto|]. cbn [app] in Hlex2, Hparse2. fold T2 in Hlex2, Hparse2.
  set (p3 := p2 + blen T2) in *.
  assert (Ep : p + blen (T1 ++ s ++ T2) = p3) by (rewrite !blen_app; subst p3 p2 p1; lia).
  destruct (raw_tokens s p1 Hs) as (tss & Hlexs & Hus). fold p2 in Hlexs, Hus.
  exists BStartRawBlock, (p + blen o1), (ts1 ++ tss ++ Tok (TBlock BEndRawBlock) p2 (p2 + blen o2) :: ts2). split; [reflexivity|]. split.
  - intros rest L Hr HL. rewrite Ep in HL. rewrite <- !app_assoc. apply Hlex1.
    + apply Hs. destruct HT2 as (r & E). rewrite E. cbn. discriminate.
    + cbn [app]. apply Hlexs; [destruct HT2 as (r & E); rewrite E; cbn; discriminate|]. exact (Hlex2 rest L Hr HL).
  - intros cx L line byte He Hat. pose proof (at_l _ _ _ _ Hat) as Hat1. pose proof (at_r _ _ _ _ Hat) as Hat2. fold p1 in Hat2.
    pose proof (at_l _ _ _ _ Hat2) as Hats. apply at_r in Hat2. fold p2 in Hat2.
    set (L2 := ts2 ++ L). set (L1 := tss ++ Tok (TBlock BEndRawBlock) p2 (p2 + blen o2) :: L2).
    destruct (Hparse1 cx L1 line byte He Hat1) as (c1 & ln1 & b1 & E1 & Hcall & H1 & H2 & H3 & H4 & H5).
    destruct (H5 w args hash eq_refl) as (Hname & _).
    destruct (Hus (p2 + blen o2) L2 ln1 b1) as (l2 & b2 & Eu). fold L1 in Eu.
    destruct (Hparse2 cx L l2 b2 He Hat2) as (c2 & ln3 & b3 & E2 & _ & G1 & G2 & _ & _ & G5). destruct (G5 w [] [] eq_refl) as (Hname2 & _).
    assert (ET1 : T1 = o1 ++ (ra1 ++ u1 ++ gz1) ++ tilde (tl_after m) ++ lit "}}}}") by (subst T1; rewrite Era1, <- !app_assoc; reflexivity).
    assert (ET2 : T2 = o2 ++ (ra2 ++ w ++ gz2) ++ tilde (tl_after m') ++ lit "}}}}") by (subst T2; rewrite Era2, <- !app_assoc; reflexivity).
    destruct (tag_ends (px_src cx) c1 o1 (ra1 ++ u1 ++ gz1) (tilde (tl_after m) ++ lit "}}}}") p) as (F1 & F2 & F3 & F4);
      [rewrite <- ET1; exact Hat1|exact H1|rewrite H2, <- ET1; rewrite Era1, <- !app_assoc; reflexivity|].
    set (bl := mkBlock [NText (mkText (p1, p2) (ln1, l2 + 1))] true (p, p + blen o1) (Some (p2, p3)) c1 [] (line, ln3 + 1)).
    exists (NBlock bl), ln3, b3. split; [|split; [exact I|]].
    + apply (isN_raw ly pe _ bl x m s m' (mkText (p1, p2) (ln1, l2 + 1)) (T1 ++ s ++ T2)); try reflexivity.
      * exact Hcall.
      * unfold text_str. cbn [tx_span]. apply (at_sl _ _ s); [exact Hats|reflexivity].
      * cbn [node_trim]. unfold block_trim_before, block_trim_after, block_open_str. cbn [bl b_open b_raw b_call].
        rewrite (at_sl _ _ o1 (p + blen o1)); [|apply (at_l _ _ o1 ((ra1 ++ u1 ++ gz1) ++ tilde (tl_after m) ++ lit "}}}}")); rewrite <- ET1; exact Hat1|reflexivity].
        unfold call_trim_after. rewrite F2.
        rewrite (block_open_hint _ _ _ _ 4 Ho1) by (try reflexivity; cbn; tauto). rewrite closer_ends by (cbn; tauto). reflexivity.
      * eapply (close_tag_hint ly _ bl "{{{{" "}}}}" m' w a z T2); [exact HZ0| |reflexivity|reflexivity|reflexivity|exact Hz|eapply name_last; [exact Hnm|reflexivity]].
        cbn [block_close_str bl b_close]. apply (at_sl _ _ T2); [exact Hat2|reflexivity].
      * unfold block_str. cbn [bl b_open b_close fst snd]. apply slice_between; [exact Hat|]. rewrite !blen_app. subst p3 p2 p1. lia.
      * exact HwT.
    + intros f stk. rewrite advance_eq. cbn [t_kind is_newline is_text f_p f_stack f_next]. unfold raw_block.
      change (tspan (Tok (TBlock BStartRawBlock) p (p + blen o1))) with (p, p + blen o1).
      replace ((ts1 ++ tss ++ Tok (TBlock BEndRawBlock) p2 (p2 + blen o2) :: ts2) ++ L) with (ts1 ++ L1)
        by (subst L1 L2; now rewrite <- !app_assoc).
      rewrite E1. cbn [pbind]. rewrite H2, Hname. cbn [pslice].
      unfold text_until. cbn [p_toks p_line p_byte snd]. rewrite Eu.
      change (tspan (Tok (TBlock BEndRawBlock) p2 (p2 + blen o2))) with (p2, p2 + blen o2).
      subst L2. rewrite E2. cbn [pbind]. rewrite G2, Hname2. cbn [pslice]. rewrite streq_refl, G1. reflexivity.
Qed.
