(** * SynTag: lexing and parsing of what stands between the delimiters of a tag (Spec_Source). *)
From Coq Require Import Lia String.
From Verif Require Import Str Regex Lexer Json Ast ErrInfo Parser StrFacts RegexFacts Spec_Lexer LexerFacts CallFacts Spec_Source SynLex SynStr SynPath SynCall.
Open Scope nat_scope. Open Scope list_scope.

(** the text after a tag does not start with a closing brace *)
Definition nobrace (rest : str) : Prop := match rest with c :: _ => c <> 125%N | [] => True end.
Lemma nobrace_cons c r : nobrace (c :: r) -> (c =? 125)%N = false.
Proof. intro H. now apply N.eqb_neq. Qed.

Definition closers : list str := [lit "}}"; lit "}}}"; lit "}}}}"].
Ltac close_tac w Hr rest := apply (next_concrete MParam w); [discriminate|reflexivity|];
  destruct rest as [|d rest]; [reflexivity|apply nobrace_cons in Hr; pose proof Hr as Hr'; rewrite N.eqb_sym in Hr'; follow; rewrite ?Hr, ?Hr'; reflexivity].
Lemma next_close a cl rest : In cl closers -> nobrace rest ->
  next_token MParam ((tilde a ++ cl) ++ rest) (TParam KEnd) (length (tilde a ++ cl)).
Proof.
  intros Hin Hr. cbn in Hin. destruct Hin as [<-|[<-|[<-|[]]]]; destruct a.
  - close_tac (lit "~}}") Hr rest.
  - close_tac (lit "}}") Hr rest.
  - close_tac (lit "~}}}") Hr rest.
  - close_tac (lit "}}}") Hr rest.
  - close_tac (lit "~}}}}") Hr rest.
  - close_tac (lit "}}}}") Hr rest.
Qed.
Lemma close_psep a cl rest : In cl closers -> psep ((tilde a ++ cl) ++ rest).
Proof.
  intro Hin. cbn in Hin. destruct a; [exists 126%N|exists 125%N].
  - exists (cl ++ rest). split; [reflexivity|]. cbn. tauto.
  - destruct Hin as [<-|[<-|[<-|[]]]]; eexists; (split; [reflexivity|]); cbn; tauto.
Qed.
Lemma next_gt rest : next_token MParam ([62%N] ++ rest) (TParam KPartial) 1.
Proof. conc [62%N]. destruct rest; reflexivity. Qed.
Lemma next_else rest : psep rest -> next_token MParam (lit "else" ++ rest) (TParam KElse) 4.
Proof. intros (d & r & -> & Hd). cbn in Hd. conc (lit "else"). repeat (destruct Hd as [<-|Hd]; [reflexivity|]). contradiction. Qed.

(** what may stand before the call: nothing, [>] or [else], and white space *)
Definition pre_ok (f : str) (pt cd : bool) : Prop :=
  (f = [] /\ pt = false /\ cd = false)
  \/ (exists g, f = [62%N] ++ g /\ gap_str g /\ pt = true /\ cd = false)
  \/ (exists g, f = lit "else" ++ g /\ gap_str g /\ g <> [] /\ pt = false /\ cd = true).
Lemma partial_pre ly p f : partial_writes ly p f -> pre_ok f p false.
Proof.
  destruct p; cbn [partial_writes]; [|intros ->; left; auto]. intros (g & -> & Hg). right. left. exists g. repeat split. now apply after_gt_gap in Hg.
Qed.

Definition tag_result (ly : layout) (pe : penv) (cx : pctx) (pt cd : bool) (x : callx) (open close : span) (c : call) : Prop :=
  call_is ly pe (px_src cx) pt cd c x /\ c_open c = open /\ c_close c = Some close /\ c_partial c = pt /\ c_conditional c = cd
  /\ forall w a hs, x = Call (HdName w) [] a hs ->
       target_str (px_src cx) (c_target c) = Some w
       /\ exists q, c_target c = TPath q /\ path_is_simple q = true /\ exists comp cs, pa_comps q = comp :: cs /\ comp_str (px_src cx) comp = Some w.
(** the call that is read, its target and arguments having the property [R] *)
Definition tag_holds (cx : pctx) (pt cd : bool) (open close : span) (R : pctx -> target -> list param -> list (str * param) -> Prop) (c : call) : Prop :=
  exists tg vs ps ln, c = mkCall pt cd open (Some close) tg vs ps ln /\ R cx tg vs ps.

Lemma call_parse_eq cx open st : call_parse cx open st =
  (let st := set_byte (snd open) st in
   let c := call_new open (line_range st) in
   let '(c, next, st) := flags_go c (fst (pnext st)) (p_toks (snd (pnext st))) (p_line (snd (pnext st))) (p_byte (snd (pnext st))) in
   if c_partial c && c_conditional c then perr cx SMixedPartialConditional st
   else pbind (call_target (call_fuel st) cx c next CtxCall st)
          (fun r st => pbind (arguments (call_fuel st) cx (fst r) (snd r) CtxCall st)
             (fun r st => POk (call_lines_end (p_line st) (fst r)) st))).
Proof.
  unfold call_parse. destruct (pnext (set_byte (snd open) st)) as [n s]. cbn [fst snd].
  destruct (flags_go _ _ _ _ _) as [[c n'] s']. destruct (c_partial c && c_conditional c); [reflexivity|].
  destruct (call_target _ _ _ _ _ _) as [[c1 n1] s1| | |]; try reflexivity. cbn [pbind fst snd].
  destruct (arguments _ _ _ _ _ _) as [[c2 n2] s2| | |]; reflexivity.
Qed.
(** the flags, read from the tokens [Y] *)
Definition fgo c Y line byte := flags_go c (fst (pnext (mkPst Y line byte))) (p_toks (snd (pnext (mkPst Y line byte)))) (p_line (snd (pnext (mkPst Y line byte)))) (p_byte (snd (pnext (mkPst Y line byte)))).
Lemma fgo_skip c t X byte g : Forall gap_tok g -> forall line, exists line', fgo c (g ++ t :: X) line byte = flags_go c (Some t) X line' byte.
Proof.
  induction 1 as [|x g Hx _ IH]; intro line; [exists line; reflexivity|].
  destruct (IH (match t_kind x with TParam KNewline => S line | _ => line end)) as (l' & E). exists l'. rewrite <- E. unfold fgo. cbn [app pnext p_toks p_line p_byte fst snd].
  destruct x as [kx sx ex]. cbn [t_kind] in *. destruct Hx as [Hx|Hx]; cbn in Hx; subst kx; destruct g; reflexivity.
Qed.

Lemma tag_body pe g f pt cd R u gz a cl : gap_str g -> pre_ok f pt cd -> body_good pe u R -> gap_str gz -> In cl closers ->
  forall p, exists ts,
    (forall rest L, nobrace rest -> tokenizes MBlock (p + blen (g ++ f ++ u ++ gz ++ tilde a ++ cl)) rest L ->
       tokenizes MParam p ((g ++ f ++ u ++ gz ++ tilde a ++ cl) ++ rest) (ts ++ L))
    /\ 1 <= length ts
    /\ forall cx open L line byte, px_env cx = pe -> at_ (px_src cx) p (g ++ f ++ u ++ gz ++ tilde a ++ cl) ->
         exists c line' byte', call_parse cx open (mkPst (ts ++ L) line byte) = POk c (mkPst L line' byte')
           /\ tag_holds cx pt cd open (p + blen (g ++ f ++ u ++ gz), p + blen (g ++ f ++ u ++ gz ++ tilde a ++ cl)) R c.
Proof.
  intros Hg Hpre [Hfirst Hgood] Hgz Hcl p.
  set (p0 := p + blen g). set (p1 := p0 + blen f). set (p2 := p1 + blen u). set (p3 := p2 + blen gz). set (p4 := p3 + blen (tilde a ++ cl)).
  destruct (Hgood p1) as (k & en & ts & Hk & Hlex & Hparse).
  destruct (gap_lex (length g) g (le_n _) Hg p) as (tg & T1 & _ & _ & _ & T5). fold p0 in T5.
  destruct (gap_lex (length gz) gz (le_n _) Hgz p2) as (tz & Z1 & _ & _ & _ & Z5). fold p3 in Z5.
  assert (E3 : p + blen (g ++ f ++ u ++ gz) = p3) by (rewrite !blen_app; subst p3 p2 p1 p0; lia).
  assert (E4 : p + blen (g ++ f ++ u ++ gz ++ tilde a ++ cl) = p4) by (rewrite !blen_app; subst p4 p3 p2 p1 p0; rewrite blen_app; lia).
  set (endt := Tok (TParam KEnd) p3 p4). set (kt := Tok (TParam k) p1 en).
  assert (Hlexend : forall rest L, nobrace rest -> tokenizes MBlock p4 rest L ->
            tokenizes MParam p1 (u ++ gz ++ (tilde a ++ cl) ++ rest) (kt :: ts ++ tz ++ endt :: L)).
  { intros rest L Hr HL. apply Hlex; [apply gap_psep; [exact Hgz|right; now apply close_psep]|]. fold p2.
    apply Z5.
    { cbn in Hcl. destruct a; [cbn; split; discriminate|]. destruct Hcl as [<-|[<-|[<-|[]]]]; cbn; split; discriminate. }
    eapply (tkz _ _ (tilde a ++ cl)); [reflexivity|now apply next_close|reflexivity|exact HL]. }
  assert (Hcall : forall cx c L line byte f, px_env cx = pe -> at_ (px_src cx) p1 u -> c_args c = [] -> c_params c = [] ->
     c_partial c = pt -> c_conditional c = cd -> c_close c = None -> 4 * S (length ts) <= f ->
     exists cc line' byte',
       pbind (call_target f cx c (Some kt) CtxCall (mkPst (ts ++ tz ++ endt :: L) line byte))
          (fun r st => pbind (arguments (call_fuel st) cx (fst r) (snd r) CtxCall st)
             (fun r st => POk (call_lines_end (p_line st) (fst r)) st)) = POk cc (mkPst L line' byte')
       /\ tag_holds cx pt cd (c_open c) (p3, p4) R cc).
  { intros cx c L line byte fu Henv Hat Ha Hp Hpt Hcd Hcl0 Hf.
    destruct (Hparse cx fu c tz endt L line byte Henv Hat eq_refl Z1 Hf Hp) as (tgt & b1 & nx & l1 & line1 & E1 & H2).
    destruct (H2 (call_fuel (mkPst l1 line1 b1)) ltac:(unfold call_fuel; cbn [p_toks]; lia)) as (vs & ps & line2 & b2 & E5 & His).
    fold kt in E1. rewrite E1. cbn [pbind fst snd]. rewrite E5. cbn [pbind fst snd after_end p_line].
    eexists _, line2, b2. split; [reflexivity|]. destruct c as [c1 c2 c3 c4 c5 c6 c7 c8]. cbn in Ha, Hp, Hpt, Hcd, Hcl0. subst c6 c7 c1 c2.
    cbn. exists tgt, vs, ps. eexists. split; [reflexivity|exact His]. }
  rewrite E3, E4. destruct Hpre as [(-> & -> & ->)|[(g1 & -> & Hg1 & -> & ->)|(g1 & -> & Hg1 & Hne & -> & ->)]].
  - exists (tg ++ kt :: ts ++ tz ++ [endt]). split; [|split; [rewrite app_length; cbn; lia|]].
    + intros rest L Hr HL. rewrite <- !app_assoc. cbn [app]. rewrite <- !app_assoc. cbn [app].
      apply T5; [apply arg_noblank, first_arg, Hfirst|]. replace p0 with p1 by (subst p1; cbn; lia). rewrite (app_assoc (tilde a)). now apply Hlexend.
    + intros cx open L line byte Henv Hat. apply at_r in Hat. fold p0 in Hat. cbn [app] in Hat. apply at_l in Hat. replace p0 with p1 in Hat by (subst p1; cbn; lia).
      rewrite call_parse_eq. cbv zeta. rewrite <- app_assoc. cbn [app]. rewrite <- !app_assoc. cbn [app].
      change (set_byte (snd open) (mkPst (tg ++ kt :: ts ++ tz ++ endt :: L) line byte)) with (mkPst (tg ++ kt :: ts ++ tz ++ endt :: L) line (snd open)).
      set (c0 := call_new open _). fold (fgo c0 (tg ++ kt :: ts ++ tz ++ endt :: L) line (snd open)).
      destruct (fgo_skip c0 kt (ts ++ tz ++ endt :: L) (snd open) tg T1 line) as (l' & ->).
      unfold kt at 1. rewrite Hk. fold kt. cbn [c_partial c_conditional call_new andb c0].
      apply (Hcall cx c0 L l' (snd open)); try assumption; try reflexivity. unfold call_fuel. cbn [p_toks]. rewrite app_length. lia.
  - destruct (gap_lex (length g1) g1 (le_n _) Hg1 (p0 + 1)) as (t1 & U1 & _ & _ & _ & U5).
    replace (p0 + 1 + blen g1) with p1 in U5 by (subst p1; rewrite blen_app; change (blen [62%N]) with 1; lia).
    set (gt := Tok (TParam KPartial) p0 (p0 + 1)).
    exists (tg ++ gt :: t1 ++ kt :: ts ++ tz ++ [endt]). split; [|split; [rewrite app_length; cbn; lia|]].
    + intros rest L Hr HL. rewrite <- !app_assoc. cbn [app]. rewrite <- !app_assoc. cbn [app]. rewrite <- !app_assoc. cbn [app].
      apply T5; [cbn; split; discriminate|]. eapply (tkz _ _ [62%N]); [reflexivity|apply next_gt|reflexivity|]. cbn [next_mode]. change (blen [62%N]) with 1.
      apply U5; [apply arg_noblank, first_arg, Hfirst|]. rewrite (app_assoc (tilde a)). now apply Hlexend.
    + intros cx open L line byte Henv Hat. apply at_r in Hat. fold p0 in Hat. apply at_r in Hat. fold p1 in Hat. apply at_l in Hat.
      rewrite call_parse_eq. cbv zeta. rewrite <- app_assoc. cbn [app]. rewrite <- !app_assoc. cbn [app]. rewrite <- !app_assoc. cbn [app].
      set (Y := tg ++ gt :: t1 ++ kt :: ts ++ tz ++ endt :: L).
      change (set_byte (snd open) (mkPst Y line byte)) with (mkPst Y line (snd open)).
      set (c0 := call_new open _). fold (fgo c0 Y line (snd open)). unfold Y at 1.
      destruct (fgo_skip c0 gt (t1 ++ kt :: ts ++ tz ++ endt :: L) (snd open) tg T1 line) as (l' & ->).
      set (c1 := call_set_partial true c0).
      assert (Ef : flags_go c0 (Some gt) (t1 ++ kt :: ts ++ tz ++ endt :: L) l' (snd open)
        = (c1, fst (pnext (mkPst (t1 ++ kt :: ts ++ tz ++ endt :: L) l' (snd open))), snd (pnext (mkPst (t1 ++ kt :: ts ++ tz ++ endt :: L) l' (snd open))))) by (destruct t1; reflexivity).
      rewrite Ef. cbn [c_partial c_conditional call_new call_set_partial andb c1 c0].
      set (st := snd (pnext _)).
      assert (Hst : length t1 <= call_fuel st) by (subst st; unfold call_fuel; destruct t1; cbn [pnext p_toks snd app length]; [lia|rewrite app_length; cbn; lia]).
      assert (Hst1 : 4 * S (length ts) <= call_fuel st - length t1) by (subst st; unfold call_fuel in *; destruct t1; cbn [pnext p_toks snd app length] in *; [rewrite app_length; lia|rewrite app_length in *; cbn [length]; rewrite app_length in *; lia]).
      destruct (skip call_target ltac:(cbn; tauto) cx c1 CtxCall t1 U1 kt (ts ++ tz ++ endt :: L) (call_fuel st) l' (snd open) Hst) as (l2 & Es).
      unfold start in Es. fold st in Es. change (mkCall true false open None _ [] [] _) with c1. rewrite Es.
      destruct (Hcall cx c1 L l2 (snd open) (call_fuel st - length t1) Henv Hat eq_refl eq_refl eq_refl eq_refl eq_refl Hst1) as (cc & l3 & b3 & E & Hr).
      exists cc, l3, b3. split; [exact E|exact Hr].
  - destruct (gap_lex (length g1) g1 (le_n _) Hg1 (p0 + 4)) as (t1 & U1 & _ & _ & _ & U5).
    replace (p0 + 4 + blen g1) with p1 in U5 by (subst p1; rewrite blen_app; change (blen (lit "else")) with 4; lia).
    set (gt := Tok (TParam KElse) p0 (p0 + 4)).
    exists (tg ++ gt :: t1 ++ kt :: ts ++ tz ++ [endt]). split; [|split; [rewrite app_length; cbn; lia|]].
    + intros rest L Hr HL. rewrite <- !app_assoc. cbn [app]. rewrite <- !app_assoc. cbn [app]. rewrite <- !app_assoc. cbn [app].
      apply T5; [cbn; split; discriminate|].
      eapply (tkz _ _ (lit "else") (g1 ++ u ++ gz ++ tilde a ++ cl ++ rest)); [reflexivity|apply next_else; apply gap_psep; [exact Hg1|now left]|reflexivity|]. cbn [next_mode]. change (blen (lit "else")) with 4.
      apply U5; [apply arg_noblank, first_arg, Hfirst|]. rewrite (app_assoc (tilde a)). now apply Hlexend.
    + intros cx open L line byte Henv Hat. apply at_r in Hat. fold p0 in Hat. apply at_r in Hat. fold p1 in Hat. apply at_l in Hat.
      rewrite call_parse_eq. cbv zeta. rewrite <- app_assoc. cbn [app]. rewrite <- !app_assoc. cbn [app]. rewrite <- !app_assoc. cbn [app].
      set (Y := tg ++ gt :: t1 ++ kt :: ts ++ tz ++ endt :: L).
      change (set_byte (snd open) (mkPst Y line byte)) with (mkPst Y line (snd open)).
      set (c0 := call_new open _). fold (fgo c0 Y line (snd open)). unfold Y at 1.
      destruct (fgo_skip c0 gt (t1 ++ kt :: ts ++ tz ++ endt :: L) (snd open) tg T1 line) as (l' & ->).
      set (c1 := call_set_conditional true c0).
      assert (Ef : flags_go c0 (Some gt) (t1 ++ kt :: ts ++ tz ++ endt :: L) l' (snd open)
        = (c1, fst (pnext (mkPst (t1 ++ kt :: ts ++ tz ++ endt :: L) l' (snd open))), snd (pnext (mkPst (t1 ++ kt :: ts ++ tz ++ endt :: L) l' (snd open))))) by (destruct t1; reflexivity).
      rewrite Ef. cbn [c_partial c_conditional call_new call_set_conditional andb c1 c0].
      set (st := snd (pnext _)).
      assert (Hst : length t1 <= call_fuel st) by (subst st; unfold call_fuel; destruct t1; cbn [pnext p_toks snd app length]; [lia|rewrite app_length; cbn; lia]).
      assert (Hst1 : 4 * S (length ts) <= call_fuel st - length t1) by (subst st; unfold call_fuel in *; destruct t1; cbn [pnext p_toks snd app length] in *; [rewrite app_length; lia|rewrite app_length in *; cbn [length]; rewrite app_length in *; lia]).
      destruct (skip call_target ltac:(cbn; tauto) cx c1 CtxCall t1 U1 kt (ts ++ tz ++ endt :: L) (call_fuel st) l' (snd open) Hst) as (l2 & Es).
      unfold start in Es. fold st in Es. change (mkCall false true open None _ [] [] _) with c1. rewrite Es.
      destruct (Hcall cx c1 L l2 (snd open) (call_fuel st - length t1) Henv Hat eq_refl eq_refl eq_refl eq_refl eq_refl Hst1) as (cc & l3 & b3 & E & Hr).
      exists cc, l3, b3. split; [exact E|exact Hr].
Qed.

Lemma tag_good ly pe g f pt cd x u gz a cl : gap_str g -> pre_ok f pt cd -> call_writes ly x u -> callx_ok pe x -> gap_str gz -> In cl closers ->
  forall p, exists ts,
    (forall rest L, nobrace rest -> tokenizes MBlock (p + blen (g ++ f ++ u ++ gz ++ tilde a ++ cl)) rest L ->
       tokenizes MParam p ((g ++ f ++ u ++ gz ++ tilde a ++ cl) ++ rest) (ts ++ L))
    /\ 1 <= length ts
    /\ forall cx open L line byte, px_env cx = pe -> at_ (px_src cx) p (g ++ f ++ u ++ gz ++ tilde a ++ cl) ->
         exists c line' byte', call_parse cx open (mkPst (ts ++ L) line byte) = POk c (mkPst L line' byte')
           /\ tag_result ly pe cx pt cd x open (p + blen (g ++ f ++ u ++ gz), p + blen (g ++ f ++ u ++ gz ++ tilde a ++ cl)) c.
Proof.
  intros Hg Hpre Hw Hx Hgz Hcl p.
  destruct (tag_body pe g f pt cd _ u gz a cl Hg Hpre (call_body_good ly pe x u Hw Hx) Hgz Hcl p) as (ts & H1 & H2 & H3).
  exists ts. split; [exact H1|]. split; [exact H2|]. intros cx open L line byte He Hat. destruct (H3 cx open L line byte He Hat) as (c & l' & b' & E & (tg & vs & ps & ln & -> & R1 & R2)).
  exists (mkCall pt cd open (Some (p + blen (g ++ f ++ u ++ gz), p + blen (g ++ f ++ u ++ gz ++ tilde a ++ cl))) tg vs ps ln), l', b'. split; [exact E|].
  split; [apply R1|]. repeat (split; [reflexivity|]). exact R2.
Qed.

(** [{{else}}] without a condition *)
Lemma else_good g gz a : gap_str g -> gap_str gz -> forall p, exists ts,
    (forall rest L, nobrace rest -> tokenizes MBlock (p + blen (g ++ lit "else" ++ gz ++ tilde a ++ lit "}}")) rest L ->
       tokenizes MParam p ((g ++ lit "else" ++ gz ++ tilde a ++ lit "}}") ++ rest) (ts ++ L))
    /\ 1 <= length ts
    /\ forall cx open L line byte,
         exists c line' byte', call_parse cx open (mkPst (ts ++ L) line byte) = POk c (mkPst L line' byte')
           /\ call_is_empty c = true /\ c_open c = open /\ c_partial c = false /\ c_conditional c = true
           /\ c_close c = Some (p + blen (g ++ lit "else" ++ gz), p + blen (g ++ lit "else" ++ gz ++ tilde a ++ lit "}}")).
Proof.
  intros Hg Hgz p. set (p0 := p + blen g). set (p2 := p0 + 4). set (p3 := p2 + blen gz). set (p4 := p3 + blen (tilde a ++ lit "}}")).
  destruct (gap_lex (length g) g (le_n _) Hg p) as (tg & T1 & _ & _ & _ & T5). fold p0 in T5.
  destruct (gap_lex (length gz) gz (le_n _) Hgz p2) as (tz & Z1 & _ & _ & _ & Z5). fold p3 in Z5.
  assert (E3 : p + blen (g ++ lit "else" ++ gz) = p3) by (rewrite !blen_app; change (blen (lit "else")) with 4; subst p3 p2 p0; lia).
  assert (E4 : p + blen (g ++ lit "else" ++ gz ++ tilde a ++ lit "}}") = p4) by (rewrite !blen_app; change (blen (lit "else")) with 4; subst p4 p3 p2 p0; rewrite blen_app; lia).
  rewrite E3, E4. set (gt := Tok (TParam KElse) p0 p2). set (endt := Tok (TParam KEnd) p3 p4).
  exists (tg ++ gt :: tz ++ [endt]). split; [|split; [rewrite app_length; cbn; lia|]].
  - intros rest L Hr HL. rewrite <- !app_assoc. cbn [app]. rewrite <- !app_assoc. cbn [app].
    apply T5; [cbn; split; discriminate|].
    eapply (tkz _ _ (lit "else") (gz ++ tilde a ++ lit "}}" ++ rest)); [reflexivity|apply next_else; apply gap_psep; [exact Hgz|right; rewrite app_assoc; apply close_psep; cbn; tauto]|reflexivity|]. cbn [next_mode].
    fold p2. apply Z5; [destruct a; cbn; split; discriminate|].
    eapply (tkz _ _ (tilde a ++ lit "}}")); [now rewrite <- app_assoc|apply next_close; [cbn; tauto|exact Hr]|reflexivity|exact HL].
  - intros cx open L line byte. rewrite call_parse_eq. cbv zeta. rewrite <- app_assoc. cbn [app]. rewrite <- !app_assoc. cbn [app].
    set (Y := tg ++ gt :: tz ++ endt :: L).
    change (set_byte (snd open) (mkPst Y line byte)) with (mkPst Y line (snd open)).
    set (c0 := call_new open _). fold (fgo c0 Y line (snd open)). unfold Y at 1.
    destruct (fgo_skip c0 gt (tz ++ endt :: L) (snd open) tg T1 line) as (l' & ->).
    set (c1 := call_set_conditional true c0).
    assert (Ef : flags_go c0 (Some gt) (tz ++ endt :: L) l' (snd open)
      = (c1, fst (pnext (mkPst (tz ++ endt :: L) l' (snd open))), snd (pnext (mkPst (tz ++ endt :: L) l' (snd open))))) by (destruct tz; reflexivity).
    rewrite Ef. cbn [c_partial c_conditional call_new call_set_conditional andb c1 c0].
    set (st := snd (pnext _)).
    assert (Hst : length tz <= call_fuel st) by (subst st; unfold call_fuel; destruct tz; cbn [pnext p_toks snd app length]; [lia|rewrite app_length; cbn; lia]).
    assert (Hst1 : 1 <= call_fuel st - length tz) by (subst st; unfold call_fuel in *; destruct tz; cbn [pnext p_toks snd app length] in *; [lia|rewrite app_length in *; cbn in *; lia]).
    destruct (skip call_target ltac:(cbn; tauto) cx c1 CtxCall tz Z1 endt L (call_fuel st) l' (snd open) Hst) as (l2 & Es).
    unfold start in Es. fold st in Es. change (mkCall false true open None _ [] [] _) with c1. rewrite Es.
    destruct (call_fuel st - length tz) as [|fu] eqn:Ef2; [lia|].
    rewrite call_target_eq. unfold endt at 1. cbn [t_kind tgt_action]. unfold call_has_target, target_str, path_str, sl. cbn [c_target c1 c0 call_new call_set_conditional path_new pa_span fst snd].
    assert (Hs : slice (px_src cx) 0 0 = Some []) by (rewrite (slice_between (px_src cx) 0 0 []); [reflexivity|exists [], (px_src cx); split; reflexivity|reflexivity]).
    rewrite Hs. cbn [c_conditional negb andb pbind fst snd].
    match goal with |- context [arguments (call_fuel ?s)] => destruct (call_fuel s) as [|f2] eqn:Ef3; [unfold call_fuel in Ef3; lia|] end.
    rewrite arguments_eq. cbn [pbind fst snd]. eexists _, _, _. split; [reflexivity|]. cbn. repeat split.
Qed.
