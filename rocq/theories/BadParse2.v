(** * BadParse2: the remaining kinds of mistakes (Spec_Bad). *)
From Coq Require Import Lia String.
From Verif Require Import Str Regex Lexer Json Ast ErrInfo Parser StrFacts RegexFacts Spec_Lexer LexerFacts CallFacts BlockFacts DocFacts Spec_Source
  SynLex SynStr SynPath SynCall SynTag SynDoc SynItem SynBlock Spec_Bad BadFacts BadParse BadQuote BadPath.
Open Scope nat_scope. Open Scope list_scope.
Notation at_ := SynPath.at_.

Lemma closes_arg_first z : closes z -> arg_first z.
Proof. intro H. destruct (closes_first z H) as (d & z' & -> & Hd). exists d, z'. split; [reflexivity|]. cbn in Hd. destruct Hd as [<-|[<-|[]]]; split; discriminate. Qed.
Lemma bad_end_good pe pl s k : mistake_end pl = Some k -> closes s -> bad_good pe pl k s.
Proof.
  intros Hm Hs. split; [intros _; now apply closes_arg_first|]. intros p rest Hr.
  exists (Tok (TParam KEnd) p (p + blen s)), []. split; [|split; [|split; [|split]]].
  - intros L HL. cbn [app]. eapply (tkz _ _ s); [reflexivity|now apply closes_lex|reflexivity|exact HL].
  - intros _ [E|E]; discriminate E.
  - intros _. exists KEnd. split; [reflexivity|cbn; tauto].
  - intros _. exists KEnd. split; [reflexivity|cbn; intuition discriminate].
  - intros cx L _ _. destruct pl as [f|sub|sub|]; cbn [bad_parse app].
    + intros B fuel c F fin line byte _ Ht Hcd _ Hfu _. destruct fuel as [|fuel]; [lia|]. rewrite call_target_eq. cbn [t_kind tgt_action]. rewrite Ht, Hcd.
      destruct f; cbn in Hm; try discriminate Hm; injection Hm as <-; cbn [is_cond negb andb]; apply refuses_bind; apply (refuses_perr _ _ []); constructor.
    + intros B fuel c fin line byte Hfin Hc Hfu. destruct fuel as [|fuel]; [lia|]. rewrite arguments_eq. cbn [t_kind arg_action].
      destruct sub; cbn in Hm; try discriminate Hm; injection Hm as <-. cbn [sub_ctx pbind]. apply (refuses_else cx fin []); [assumption|constructor|assumption].
    + discriminate Hm.
    + intros fuel line byte Hfu. destruct fuel as [|fuel]; [lia|]. injection Hm as <-. exists KEnd. split; [reflexivity|]. rewrite value_eq. cbn [val_action].
      apply (refuses_perr _ _ []). constructor.
Qed.
Lemma bad_no_value_good pe g s : gap_str g -> g <> [] -> tag_rest s -> ~ starts_in blank_chars s -> bad_good pe AtValue STokenParameter (g ++ s).
Proof.
  intros Hg Hne Hs Hb. split; [congruence|]. intros p rest Hr.
  destruct (gap_lex (length g) g (le_n _) Hg p) as (tg & T1 & T2 & _ & _ & T5).
  destruct (tag_rest_lex s (p + blen g) rest Hs Hr) as (ts & _ & S2 & S3).
  destruct tg as [|t tg]; [exfalso; now apply Hne, T2|]. inversion T1 as [|? ? Ht Htg]; subst.
  exists t, (tg ++ ts). split; [|split; [|split; [|split]]].
  - intros L HL. rewrite <- app_assoc. cbn [app]. rewrite <- app_assoc. apply (T5 (s ++ rest) (ts ++ L)).
    + destruct s as [|c s]; [destruct Hs as (j & z & E & _ & Hz); destruct (closes_first z Hz) as (d & z' & -> & _); destruct j; discriminate E|].
      cbn. split; intros ->; apply Hb; eexists _, s; (split; [reflexivity|cbn; tauto]).
    + apply S3. rewrite blen_app, Nat.add_assoc in HL. exact HL.
  - congruence.
  - intros (d & r & E & Hd). exfalso. destruct g as [|c g]; [congruence|]. injection E as -> _. specialize (Hg d (or_introl eq_refl)).
    cbn in Hg. destruct Hg as [<-|[<-|[<-|[]]]]; unfold stray_chars in Hd; cbn in Hd; intuition discriminate.
  - discriminate.
  - intros cx L _ _ fuel line byte Hfu. destruct fuel as [|fuel]; [lia|].
    assert (H : Forall nonblock (tg ++ ts)) by (apply Forall_app; split; [now apply gaps_nonblock|exact S2]).
    destruct Ht as [Ht|Ht]; eexists; (split; [exact Ht|]); rewrite value_eq; cbn [val_action]; now apply refuses_perr.
Qed.
Lemma bad_string_good pe pl sg l s k : sitems_ok (quote_of sg) l -> tag_rest s ->
    (exists f, pl = AtTarget f /\ k = STokenCallTarget) \/ (exists b, pl = AtHash b /\ k = STokenHashKeyValue) ->
    bad_good pe pl k (expr_text (EStr sg l) ++ s).
Proof.
  intros Hl Hs Hpl. split; [intros _; destruct sg; eexists _, _; (split; [reflexivity|]); split; discriminate|]. intros p rest Hr.
  destruct (quote_body sg (length l) l (p + 1) (le_n _) Hl) as (ts & Hlex & Hparse & _).
  assert (Hq : blen [quote_of sg] = 1) by (destruct sg; reflexivity).
  destruct (tag_rest_lex s (p + blen (expr_text (EStr sg l))) rest Hs Hr) as (ts2 & _ & S2 & S3).
  assert (Hn : Forall nonblock ts).
  { destruct (Hparse (mkPctx pe [] []) 0 0 false false [] 0 0) as (b & E). rewrite app_nil_r in E. eapply string_nonblock, E. }
  assert (Hin : Forall nonblock (ts ++ ts2)) by now apply Forall_app.
  exists (Tok (TParam (if sg then KSingleQuote else KDoubleQuote)) p (p + 1)), (ts ++ ts2). split; [|split; [|split; [|split]]].
  - intros L HL. rewrite <- !app_assoc. cbn [expr_text]. rewrite <- !app_assoc.
    eapply (tkz _ _ [quote_of sg]); [reflexivity|apply next_quote|now rewrite Hq|].
    replace (next_mode (TParam (if sg then KSingleQuote else KDoubleQuote))) with (qmode sg) by (destruct sg; reflexivity).
    apply Hlex. cbn [expr_text] in HL, S3. rewrite !blen_app, Hq in HL, S3. fold (sitems_text (quote_of sg) l) in *.
    replace (p + 1 + blen (sitems_text (quote_of sg) l) + 1) with (p + (1 + (blen (sitems_text (quote_of sg) l) + 1))) by lia.
    apply S3. rewrite <- Nat.add_assoc. rewrite ?blen_app, Hq in HL. exact HL.
  - intros _ [E|E]; destruct sg; discriminate E.
  - intros (d & r & E & Hd). exfalso. destruct sg; injection E as <- _; unfold stray_chars in Hd; cbn in Hd; intuition discriminate.
  - intros _. eexists. split; [reflexivity|]. destruct sg; cbn; intuition discriminate.
  - intros cx L _ _. destruct Hpl as [(f & -> & ->)|(b & -> & ->)]; cbn [bad_parse].
    + intros B fuel c F fin line byte _ _ _ _ Hfu _. destruct fuel as [|fuel]; [lia|]. rewrite call_target_eq. cbn [t_kind].
      replace (tgt_action (if sg then KSingleQuote else KDoubleQuote)) with (TaErr STokenCallTarget) by (destruct sg; reflexivity). refuse.
    + intros fuel c line byte Hfu. destruct fuel as [|fuel]; [lia|]. rewrite kv_loop_eq. cbn [t_kind].
      replace (kv_action (if sg then KSingleQuote else KDoubleQuote)) with KaErr by (destruct sg; reflexivity). refuse.
Qed.
Lemma bad_newline_good pe pl q u s : (exists b, pl = AtArg b) \/ pl = AtValue -> broken_string q u -> tag_rest s -> bad_good pe pl SLiteralNewline (u ++ s).
Proof.
  intros Hpl Hu Hs. assert (Hf : exists r, u = quote_of q :: r) by (destruct Hu; eexists; reflexivity).
  split; [intros _; destruct Hf as (r & ->); destruct q; eexists _, _; (split; [reflexivity|]); split; discriminate|]. intros p rest Hr.
  destruct (broken_quote q u p Hu) as (ts & T1 & T2 & T3). destruct (tag_rest_lex s (p + blen u) rest Hs Hr) as (ts2 & _ & S2 & S3).
  exists (Tok (TParam (if q then KSingleQuote else KDoubleQuote)) p (p + 1)), (ts ++ ts2). split; [|split; [|split; [|split]]].
  - intros L HL. rewrite <- !app_assoc. apply T2, S3. rewrite blen_app, Nat.add_assoc in HL. exact HL.
  - intros _ [E|E]; destruct q; discriminate E.
  - intros (d & r & E & Hd). exfalso. destruct Hf as (r' & ->). destruct q; injection E as <- _; unfold stray_chars in Hd; cbn in Hd; intuition discriminate.
  - intros _. eexists. split; [reflexivity|]. destruct q; cbn; intuition discriminate.
  - intros cx L _ _.
    assert (Hv : forall fuel line byte, refuses cx SLiteralNewline L (value_ (S fuel) cx (if q then KSingleQuote else KDoubleQuote) (Tok (TParam (if q then KSingleQuote else KDoubleQuote)) p (p + 1)) (mkPst ((ts ++ ts2) ++ L) line byte))).
    { intros fuel line byte. rewrite value_eq. specialize (T3 cx L ts2 line byte S2).
      destruct q; cbn [val_action]; unfold json_literal; cbn [lit_of_param]; unfold string_literal; change (tspan (Tok _ p (p + 1))) with (p, p + 1); do 3 apply refuses_bind; exact T3. }
    destruct Hpl as [(b & ->)| ->]; cbn [bad_parse].
    + intros B fuel c fin line byte _ _ Hfu. destruct fuel as [|[|fuel]]; [lia..|]. rewrite arguments_eq. cbn [t_kind].
      replace (arg_action (if q then KSingleQuote else KDoubleQuote)) with AaValue by (destruct q; reflexivity). do 2 apply refuses_bind. apply Hv.
    + intros fuel line byte Hfu. destruct fuel as [|fuel]; [lia|]. eexists. split; [reflexivity|]. apply Hv.
Qed.
Lemma new_has_no_target src open ln : call_has_target src (call_new open ln) = Some false.
Proof.
  unfold call_has_target, target_str, path_str, sl. cbn [c_target call_new path_new pa_span fst snd].
  rewrite (slice_between src 0 0 []); [reflexivity|exists [], src; split; reflexivity|reflexivity].
Qed.
Lemma sub_refuses pe g s k p t ts cx L fuel line byte open tg : bad_parse (AtTarget InSub) k cx t ts L -> Forall gap_tok tg ->
  4 * (length tg + S (length ts)) + 2 <= fuel -> px_env cx = pe -> at_ (px_src cx) p (g ++ s) ->
  refuses cx k L (sub_expr fuel cx open (mkPst ((tg ++ t :: ts) ++ L) line byte)).
Proof.
  intros Hb Hg Hfu _ _. destruct fuel as [|fuel]; [lia|]. rewrite sub_expr_eq. cbv zeta.
  rewrite <- app_assoc. cbn [app]. change (set_byte (snd open) (mkPst (tg ++ t :: ts ++ L) line byte)) with (mkPst (tg ++ t :: ts ++ L) line (snd open)).
  set (c0 := call_new open _).
  destruct (skip call_target ltac:(cbn; tauto) cx c0 CtxSub tg Hg t (ts ++ L) fuel line (snd open) ltac:(lia)) as (l1 & E). unfold start in E. rewrite E.
  apply (Hb _ (fuel - length tg) c0 (fun _ => fuel)); try reflexivity.
  - intros _ r st Hr. cbn. rewrite Hr. reflexivity.
  - apply new_has_no_target.
  - lia.
  - intro st. left. lia.
Qed.
Lemma bad_sub_good pe pl g s k : (exists b, pl = AtArg b) \/ pl = AtValue \/ (exists f, pl = AtTarget f /\ f <> InSub) ->
    gap_str g -> bad_good pe (AtTarget InSub) k s -> bad_good pe pl k ([40%N] ++ g ++ s).
Proof.
  intros Hpl Hg [Hfs Hb]. split; [intros _; exists 40%N, (g ++ s); split; [reflexivity|split; discriminate]|]. intros p rest Hr.
  destruct (gap_lex (length g) g (le_n _) Hg (p + 1)) as (tg & T1 & T2 & _ & _ & T5).
  destruct (Hb (p + 1 + blen g) rest Hr) as (t & ts & B1 & _ & _ & _ & B5).
  exists (Tok (TParam KStartSub) p (p + 1)), (tg ++ t :: ts). split; [|split; [|split; [|split]]].
  - intros L HL. rewrite <- !app_assoc. cbn [app]. eapply (tkz _ _ [40%N]); [reflexivity|apply next_open_sub|reflexivity|]. cbn [next_mode].
    change (blen [40%N]) with 1. apply T5; [apply arg_noblank, Hfs; discriminate|]. apply B1. rewrite !blen_app in HL. change (blen [40%N]) with 1 in HL.
    replace (p + 1 + blen g + blen s) with (p + (1 + (blen g + blen s))) by lia. exact HL.
  - intros _ [E|E]; discriminate E.
  - intro Hj. exfalso. revert Hj. now apply lit_nojoin.
  - intros _. eexists. split; [reflexivity|]. cbn. intuition discriminate.
  - intros cx L He Hat. apply at_r in Hat. change (blen [40%N]) with 1 in Hat.
    assert (Hsub : forall fuel line byte, 4 * (length tg + S (length ts)) + 2 <= fuel -> refuses cx k L (sub_expr fuel cx (p, p + 1) (mkPst ((tg ++ t :: ts) ++ L) line byte))).
    { intros fuel line byte Hfu. eapply sub_refuses; try eassumption. apply (B5 cx L He). now apply at_r in Hat. }
    destruct Hpl as [(b & ->)|[->|(f & -> & Hf)]]; cbn [bad_parse].
    + intros B fuel c fin line byte _ _ Hfu. rewrite app_length in Hfu. cbn [length] in Hfu. destruct fuel as [|[|fuel]]; [lia..|].
      rewrite arguments_eq. cbn [t_kind arg_action]. rewrite value_eq. cbn [val_action]. change (tspan (Tok (TParam KStartSub) p (p + 1))) with (p, p + 1).
      do 3 apply refuses_bind. apply Hsub. lia.
    + intros fuel line byte Hfu. rewrite app_length in Hfu. cbn [length] in Hfu. destruct fuel as [|fuel]; [lia|]. exists KStartSub. split; [reflexivity|].
      rewrite value_eq. cbn [val_action]. change (tspan (Tok (TParam KStartSub) p (p + 1))) with (p, p + 1). apply refuses_bind. apply Hsub. lia.
    + intros B fuel c F fin line byte _ _ _ _ Hfu _. rewrite app_length in Hfu. cbn [length] in Hfu. destruct fuel as [|fuel]; [lia|].
      rewrite call_target_eq. cbn [t_kind tgt_action]. replace (ctx_of f) with CtxCall by (destruct f; try reflexivity; congruence).
      change (tspan (Tok (TParam KStartSub) p (p + 1))) with (p, p + 1). do 2 apply refuses_bind. apply Hsub. lia.
Qed.

(** ** After a good target and good arguments *)
Lemma reach pe h t args sa hash sh : head_ok h -> tail_ok t -> Forall (expr_ok pe) args -> args_write Loose args sa ->
  Forall (fun kv => key_ok (fst kv) /\ expr_ok pe (snd kv)) hash -> hash_writes Loose hash sh -> forall p, exists k e ts, start_kind k
  /\ (forall rest L, psep rest -> tokenizes MParam (p + blen (path_text h t ++ sa ++ sh)) rest L ->
        tokenizes MParam p ((path_text h t ++ sa ++ sh) ++ rest) (Tok (TParam k) p e :: ts ++ L))
  /\ forall B cx fuel c F (fin : call * option token -> pst -> pres pst B) X m line byte ctx, px_env cx = pe -> at_ (px_src cx) p (path_text h t ++ sa ++ sh) ->
       good_after X -> m < length X -> 1 <= fuel ->
       (forall st, 4 * (length (ts ++ X) - m) <= F st \/ 4 * (length (p_toks st) + 1) <= F st) ->
       exists f' c' Y' fuel' line' byte',
         pbind (call_target fuel cx c (Some (Tok (TParam k) p e)) ctx (mkPst (ts ++ X) line byte)) (fun r st => pbind (arguments (F st) cx (fst r) (snd r) ctx st) fin)
         = pbind (start f' fuel' cx c' ctx Y' line' byte') fin
         /\ (hash = [] -> f' = arguments) /\ (hash <> [] -> f' = kv_loop) /\ inside X Y' /\ 4 * (length Y' - m) <= fuel' /\ c_close c' = c_close c.
Proof.
  intros Hh Ht Ha Hwa Hhs Hwh p.
  destruct (path_good h t p Hh Ht) as (k & e & ts1 & Hk & Hlex1 & Hparse1).
  destruct (args_goes Loose pe args sa Hwa Ha (p + blen (path_text h t))) as (ts2 & S2 & Hlex2 & Hparse2).
  destruct (hash_goes Loose pe hash sh Hwh Hhs (p + blen (path_text h t) + blen sa)) as (ts3 & S3 & Hlex3 & Hparse3).
  destruct (start_value k Hk) as (K1 & K2 & K3).
  exists k, e, (ts1 ++ ts2 ++ ts3). split; [exact Hk|]. split.
  - intros rest L Hr HL. rewrite <- !app_assoc. apply Hlex1; [eapply args_psep; [exact Hwa|]; eapply hash_psep; [exact Hwh|exact Hr]|].
    apply Hlex2; [eapply hash_psep; [exact Hwh|exact Hr]|]. apply Hlex3; [exact Hr|]. rewrite !blen_app, !Nat.add_assoc in HL. exact HL.
  - intros B cx fuel c F fin X m line byte ctx He Hat HX Hm Hfu HF.
    pose proof (gap_good_after _ _ S3 HX) as HX3. pose proof (gap_good_after _ _ S2 HX3) as HX2.
    destruct (after_lands (ts2 ++ ts3 ++ X) line HX2) as (nx & L' & line1 & Hland & Hin).
    destruct (Hparse1 cx (ts2 ++ ts3 ++ X) nx L' line line1 byte (at_l _ _ _ _ Hat) Hland) as (q & b1 & E1 & _).
    apply at_r in Hat. pose proof (inside_len _ _ Hin) as Hlen. rewrite !app_length in Hlen. cbn [length] in Hlen.
    set (c1 := call_set_target (TPath q) c). set (st1 := mkPst L' line1 b1).
    assert (Hf1 : 4 * (length (nx :: L') - m) <= F st1).
    { specialize (HF st1). rewrite !app_length in HF. subst st1. cbn [p_toks length] in *. lia. }
    destruct (Hparse2 cx (F st1) c1 (ts3 ++ X) (nx :: L') ctx line1 b1 m He (at_l _ _ _ _ Hat) HX3 ltac:(rewrite app_length; lia) Hin Hf1)
      as (c2 & Y2 & fu2 & l2 & b2 & E2 & In2 & Fu2 & C2).
    apply at_r in Hat.
    destruct (Hparse3 arguments cx fu2 c2 X Y2 ctx l2 b2 m (or_introl eq_refl) He Hat HX Hm In2 Fu2) as (f3 & c3 & Y3 & fu3 & l3 & b3 & E3 & _ & N1 & N2 & In3 & Fu3 & C3).
    exists f3, c3, Y3, fu3, l3, b3. split; [|split; [exact N1|split; [exact N2|split; [exact In3|split; [exact Fu3|]]]]].
    + destruct fuel as [|fuel]; [lia|]. rewrite call_target_eq. cbn [t_kind]. rewrite K3, <- !app_assoc, E1. cbn [pbind fst snd]. fold c1 st1.
      rewrite <- E3, <- E2. reflexivity.
    + rewrite C3, C2. subst c1. destruct c. reflexivity.
Qed.
Lemma arrive f : In f [arguments; kv_loop] -> forall cx c ctx tg t ts L Y fuel line byte, Forall gap_tok tg -> ~ gap_tok t -> inside (tg ++ t :: ts ++ L) Y ->
  4 * (length Y - length L) <= fuel ->
  exists fu line', start f fuel cx c ctx Y line byte = f fu cx c (Some t) ctx (mkPst (ts ++ L) line' byte) /\ 4 * S (length ts) <= fu.
Proof.
  intros Hf cx c ctx tg t ts L Y fuel line byte Hg Ht (pre & EY & Hpre) Hfu.
  destruct (split_gap pre tg t (ts ++ L) Y Hpre Ht EY) as (g2 & Etg & ->). rewrite Etg in Hg. apply Forall_app in Hg. destruct Hg as [_ Hg2].
  rewrite app_length in Hfu. cbn [length] in Hfu. rewrite app_length in Hfu.
  destruct (skip f (skip_in f Hf) cx c ctx g2 Hg2 t (ts ++ L) fuel line byte ltac:(lia)) as (l' & E).
  exists (fuel - length g2), l'. split; [exact E|lia].
Qed.
Lemma joins_psep s rest : joins s -> psep (s ++ rest).
Proof. intros (c & r & -> & Hc). apply ended_psep. exists c, r. split; [reflexivity|]. apply in_or_app. now right. Qed.
Lemma gap_after tg t X : Forall gap_tok tg -> tg <> [] \/ stop_tok t -> good_after (tg ++ t :: X).
Proof.
  intros Hg H. destruct tg as [|x tg]; [destruct H as [H|H]; [congruence|now left]|]. inversion Hg as [|? ? [E|E] Hg']; subst; cbn [app good_after].
  - left. exists KWhiteSpace. split; [exact E|cbn; tauto].
  - right. split; [exact E|]. destruct tg; discriminate.
Qed.
Lemma path_nojoin h t s : head_ok h -> ~ joins (path_text h t ++ s).
Proof.
  intro H. unfold path_text. rewrite <- app_assoc. destruct h as [w| |x|n w|w|w]; cbn [head_text]; [..|contradiction].
  - destruct H as (H1 & H2 & _). apply idents_nojoin; [destruct w; [contradiction|discriminate]|exact H2].
  - now apply lit_nojoin.
  - now apply (lit_nojoin 46%N).
  - destruct H as [Hn _]. destruct n as [|n]; [lia|]. now apply (lit_nojoin 46%N).
  - now apply (lit_nojoin 64%N).
Qed.
(** the part common to the last three cases *)
(** ** A mistake in a path *)
Lemma bad_path_starts k s : bad_path k s -> arg_first s /\ ~ joins s.
Proof.
  assert (P : forall h t x, head_ok h -> arg_first (path_text h t ++ x) /\ ~ joins (path_text h t ++ x)).
  { intros h t x Hh. split; [|now apply path_nojoin]. apply arg_first_app. unfold path_text. apply arg_first_app. destruct h as [w| |sg|n w|w|w]; cbn in Hh.
    - apply first_arg. now apply name_first_ok.
    - now exists 116%N, (lit "his").
    - now exists 46%N, ([47%N] ++ seg_text sg).
    - destruct n as [|n]; [lia|]. now exists 46%N, (lit "./" ++ ups n ++ w).
    - now exists 64%N, w.
    - contradiction. }
  intros [h t d wk w s' k' Hh|h t wk w s' k' Hh|h t d d' s' Hh|h t w s' Hh|h t d q u s' Hh|n wk w s' k' Hn|s' Hs]; try (now apply P).
  - destruct n as [|n]; [lia|]. split; [now exists 46%N, (lit "./" ++ ups n ++ w ++ s')|]. cbn [ups]. apply lit_nojoin. reflexivity.
  - split; [now exists 46%N, s'|]. apply lit_nojoin. reflexivity.
Qed.
Lemma bad_path_good pe pl s k : (exists f, pl = AtTarget f) \/ (exists b, pl = AtArg b) \/ pl = AtValue -> bad_path k s -> bad_good pe pl k s.
Proof.
  intros Hpl H. destruct (bad_path_starts k s H) as [H1 H2]. split; [intros _; exact H1|]. intros p rest Hr.
  destruct (bad_path_refused k s H p rest Hr) as (kk & e & ts & Hk & Hlex & Href). exists (Tok (TParam kk) p e), ts.
  assert (Hin : In kk [KIdent; KThis; KLocalIdent; KThisDotSlash; KParentRef; KPathDelim]) by (destruct Hk as [Hk| ->]; [unfold start_kind in Hk; cbn in Hk |- *; tauto|cbn; tauto]).
  split; [exact Hlex|]. split; [|split; [|split]].
  - intros _ [E|E]; cbn in E; injection E as ->; cbn in Hin; intuition discriminate.
  - intros Hj. now exfalso.
  - intros _. exists kk. split; [reflexivity|]. intros X. cbn in Hin, X. intuition (subst; discriminate).
  - intros cx L He Hat. assert (A : tgt_action kk = TaPath /\ arg_action kk = AaValue /\ val_action kk = VaPath) by (cbn in Hin; intuition (subst; reflexivity)). destruct A as (A1 & A2 & A3).
    destruct Hpl as [(f & ->)|[(b & ->)| ->]]; cbn [bad_parse].
    + intros B fuel c F fin line byte _ _ _ _ Hfu _. destruct fuel as [|fuel]; [lia|]. rewrite call_target_eq. cbn [t_kind]. rewrite A1. do 2 apply refuses_bind. now apply Href.
    + intros B fuel c fin line byte _ _ Hfu. destruct fuel as [|[|fuel]]; [lia..|]. rewrite arguments_eq. cbn [t_kind]. rewrite A2, value_eq, A3. do 3 apply refuses_bind. now apply Href.
    + intros fuel line byte Hfu. destruct fuel as [|fuel]; [lia|]. exists kk. split; [reflexivity|]. rewrite value_eq, A3. apply refuses_bind. now apply Href.
Qed.
Lemma bad_deep pe f h t args sa hash sh g w k v : head_ok h -> tail_ok t -> Forall (expr_ok pe) args -> args_write Loose args sa ->
  Forall (fun kv => key_ok (fst kv) /\ expr_ok pe (snd kv)) hash -> hash_writes Loose hash sh -> gap_str g -> g <> [] \/ joins w ->
  arg_first w -> v = path_text h t ++ sa ++ sh ++ g ++ w ->
  (forall p rest, nobrace rest -> exists t ts,
    (forall L, tokenizes MBlock (p + blen w) rest L -> tokenizes MParam p (w ++ rest) (t :: ts ++ L))
    /\ ~ gap_tok t /\ (joins w -> stop_tok t)
    /\ forall cx L, px_env cx = pe -> at_ (px_src cx) p w -> forall B f' fuel c (fin : call * option token -> pst -> pres pst B) line byte,
         (hash = [] -> f' = arguments) -> (hash <> [] -> f' = kv_loop) -> fin_ok (is_sub f) cx fin -> c_close c = None -> 4 * S (length ts) <= fuel ->
         refuses cx k L (pbind (f' fuel cx c (Some t) (ctx_of f) (mkPst (ts ++ L) line byte)) fin)) ->
  bad_good pe (AtTarget f) k v.
Proof.
  intros Hh Ht Ha Hwa Hhs Hwh Hg Hgj Hw -> H. split.
  - intros _. apply arg_first_app, first_arg. now apply path_first_ok.
  - intros p rest Hr. set (u := path_text h t ++ sa ++ sh). destruct (reach pe h t args sa hash sh Hh Ht Ha Hwa Hhs Hwh p) as (k0 & e & ts0 & Hk & Hlex & Hparse).
    fold u in Hlex, Hparse.
    replace (path_text h t ++ sa ++ sh ++ g ++ w) with (u ++ g ++ w) by (subst u; now rewrite <- !app_assoc).
    destruct (gap_lex (length g) g (le_n _) Hg (p + blen u)) as (tg & T1 & T2 & _ & _ & T5).
    destruct (H (p + blen u + blen g) rest Hr) as (tw & tsw & Hlexw & Hng & Hj & Hpw).
    exists (Tok (TParam k0) p e), (ts0 ++ tg ++ tw :: tsw). split; [|split; [|split; [|split]]].
    + intros L HL. rewrite <- !app_assoc. cbn [app]. apply Hlex.
      * apply gap_psep; [exact Hg|]. destruct Hgj as [Hgj|Hgj]; [now left|right; now apply joins_psep].
      * apply T5; [now apply arg_noblank|]. apply Hlexw. rewrite !blen_app, !Nat.add_assoc in HL. exact HL.
    + intros _ [E|E]; cbn in E; injection E as ->; unfold start_kind in Hk; cbn in Hk; intuition discriminate.
    + intro Hjn. exfalso. subst u. rewrite <- app_assoc in Hjn. revert Hjn. now apply path_nojoin.
    + intros _. exists k0. split; [reflexivity|]. unfold start_kind in Hk. cbn in Hk |- *. intuition (subst; discriminate).
    + intros cx L He Hat B fuel c F fin line byte Hfin _ _ Hc Hfu HF.
      pose proof (at_l _ _ _ _ Hat) as Hatu. apply at_r in Hat. apply at_r in Hat.
      assert (HX : good_after (tg ++ tw :: tsw ++ L)).
      { apply gap_after; [exact T1|]. destruct Hgj as [Hgj|Hgj]; [left; intro E; now apply Hgj, T2|right; now apply Hj]. }
      rewrite !app_length in Hfu. cbn [length] in Hfu. rewrite <- !app_assoc. cbn [app].
      destruct (Hparse B cx fuel c F fin (tg ++ tw :: tsw ++ L) (length L) line byte (ctx_of f) He Hatu HX) as (f' & c' & Y' & fu' & l' & b' & E & N1 & N2 & HIn & Hfu' & Hc').
      * rewrite app_length. cbn [length]. rewrite app_length. lia.
      * lia.
      * intro st. specialize (HF st). rewrite !app_length in HF. rewrite !app_length. cbn [length] in *. rewrite app_length. lia.
      * rewrite E.
        assert (Hf' : In f' [arguments; kv_loop]) by (destruct hash; [rewrite N1 by reflexivity|rewrite N2 by discriminate]; cbn; tauto).
        destruct (arrive f' Hf' cx c' (ctx_of f) tg tw tsw L Y' fu' l' b' T1 Hng HIn Hfu') as (fu & l2 & E2 & Hfu2). rewrite E2.
        apply (Hpw cx L He Hat); try assumption. congruence.
Qed.
Lemma ctx_sub f : ctx_of f = sub_ctx (is_sub f).
Proof. reflexivity. Qed.
Theorem bad_all pe pl k s : bad pe pl k s -> bad_good pe pl k s.
Proof.
  induction 1 as [pl wk w s k H1 H2 H3 H4|pl s k H1 H2|g s H1 H2 H3 H4|pl sg l s k H1 H2 H3|pl q u s H1 H2 H3|pl s k H1 H2|pl g s k H1 H2 _ IH
    |f h t args sa g s k H1 H2 H3 H4 H5 H6 _ [IHf IH]
    |f h t args sa hash sh g s k H1 H2 H3 H4 H5 H6 H7 H8 H9 _ [IHf IH]
    |f h t args sa hash sh g key s k H1 H2 H3 H4 H5 H6 H7 H8 H9 _ [IHf IH]].
  - now apply (bad_word_good pe pl wk).
  - now apply bad_end_good.
  - now apply bad_no_value_good.
  - now apply bad_string_good.
  - now apply (bad_newline_good pe pl q).
  - now apply bad_path_good.
  - now apply bad_sub_good.
  - eapply (bad_deep pe f h t args sa [] [] g s); try eassumption; try constructor; [apply IHf; discriminate|].
    intros p rest Hr. destruct (IH p rest Hr) as (t0 & ts & B1 & B2 & B3 & _ & B5). exists t0, ts.
    split; [exact B1|]. split; [apply B2; discriminate|]. split; [exact B3|].
    intros cx L He Hat B f' fuel c fin line byte N1 _ Hfin Hc Hfu. rewrite (N1 eq_refl), ctx_sub. now apply (B5 cx L He Hat).
  - eapply (bad_deep pe f h t args sa hash sh g s); try eassumption; try reflexivity; [apply IHf; discriminate|].
    intros p rest Hr. destruct (IH p rest Hr) as (t0 & ts & B1 & B2 & B3 & _ & B5). exists t0, ts.
    split; [exact B1|]. split; [apply B2; discriminate|]. split; [exact B3|].
    intros cx L He Hat B f' fuel c fin line byte _ N2 Hfin Hc Hfu. rewrite (N2 H7), ctx_sub. apply refuses_bind. now apply (B5 cx L He Hat).
  - eapply (bad_deep pe f h t args sa hash sh g ((key ++ [61%N]) ++ s)); try eassumption; try reflexivity; [now left| |].
    { apply arg_first_app, first_arg, first_app. destruct H9. now apply idents_first. }
    intros p rest Hr. set (p2 := p + blen (key ++ [61%N])).
    assert (E2 : p + blen key + 1 = p2) by (subst p2; rewrite blen_app; change (blen [61%N]) with 1; lia).
    destruct (IH p2 rest Hr) as (t0 & ts & B1 & _ & _ & _ & B5).
    exists (Tok (TParam KHashKey) p p2), (t0 :: ts). split; [|split; [|split]].
    + intros L HL. rewrite <- app_assoc. eapply (tkz _ _ (key ++ [61%N])); [reflexivity| |reflexivity|].
      * now apply next_key.
      * cbn [next_mode app]. fold p2. apply B1. subst p2. rewrite blen_app, Nat.add_assoc in HL. exact HL.
    + intros [E|E]; discriminate E.
    + intro Hj. exfalso. revert Hj. rewrite <- app_assoc. destruct H9. now apply idents_nojoin.
    + intros cx L He Hat B f' fuel c fin line byte N1 N2 _ _ Hfu. apply refuses_bind. cbn [length] in Hfu. destruct fuel as [|[|fuel]]; [lia..|].
      pose proof (at_l _ _ _ _ (at_l _ _ _ _ Hat)) as Hatk. apply at_r in Hat. fold p2 in Hat.
      destruct (B5 cx L He Hat fuel line byte ltac:(lia)) as (kk & Ek & Hv).
      assert (Hkv : refuses cx k L (key_value (S fuel) cx c (Tok (TParam KHashKey) p p2) (ctx_of f) (mkPst ((t0 :: ts) ++ L) line byte))).
      { rewrite key_value_eq. cbn [t_start t_end]. rewrite <- E2, Nat.add_sub, (at_slice _ _ _ Hatk). cbn [pslice app p_toks p_line p_byte]. rewrite Ek. now apply refuses_bind. }
      destruct hash; [rewrite N1 by reflexivity; rewrite arguments_eq|rewrite N2 by discriminate; rewrite kv_loop_eq]; exact Hkv.
Qed.
