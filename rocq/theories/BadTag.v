(** * BadTag: tags with a mistake, and sources made of good and bad tags (Spec_Bad). *)
From Coq Require Import Lia String.
From Verif Require Import Str Regex Lexer Json Ast ErrInfo Parser StrFacts RegexFacts Spec_Lexer LexerFacts CallFacts BlockFacts DocFacts Spec_Source
  SynLex SynStr SynPath SynCall SynTag SynDoc SynItem SynBlock Spec_Bad BadFacts BadParse BadParse2.
Open Scope nat_scope. Open Scope list_scope.
Notation at_ := SynPath.at_.
Notation nontext := (fun k => negb (is_text k)).

(** ** Calls *)
Lemma flags_plain c t toks line byte kk : t_kind t = TParam kk -> ~ In kk [KPartial; KElse; KWhiteSpace; KNewline] ->
  flags_go c (Some t) toks line byte = (c, Some t, mkPst toks line byte).
Proof.
  intros E H. destruct toks; cbn [flags_go]; rewrite E; destruct kk; try reflexivity; exfalso; apply H; cbn; tauto.
Qed.
Lemma call_refuses pe g f fl u k : gap_str g -> flag_writes f fl u -> bad pe (AtTarget f) k u -> forall p rest, nobrace rest -> exists ts,
    (forall L, tokenizes MBlock (p + blen (g ++ fl ++ u)) rest L -> tokenizes MParam p ((g ++ fl ++ u) ++ rest) (ts ++ L))
    /\ forall cx open L line byte, px_env cx = pe -> at_ (px_src cx) p (g ++ fl ++ u) -> refuses cx k L (call_parse cx open (mkPst (ts ++ L) line byte)).
Proof.
  intros Hg Hfl Hb p rest Hr. destruct (bad_all _ _ _ _ Hb) as [Hfirst Hgood]. clear Hb.
  set (p0 := p + blen g). set (p1 := p0 + blen fl).
  destruct (Hgood p1 rest Hr) as (t & ts & Hlex & Hng & Hj & Hpl & Hparse).
  specialize (Hfirst ltac:(discriminate)). specialize (Hng ltac:(discriminate)).
  destruct (gap_lex (length g) g (le_n _) Hg p) as (tg & T1 & _ & _ & _ & T5). fold p0 in T5.
  assert (Epos : forall L, tokenizes MBlock (p + blen (g ++ fl ++ u)) rest L -> tokenizes MBlock (p1 + blen u) rest L).
  { intros L HL. rewrite !blen_app in HL. subst p1 p0. replace (p + blen g + blen fl + blen u) with (p + (blen g + (blen fl + blen u))) by lia. exact HL. }
  assert (Hfin : forall cx c open L l2 byte st t1, Forall gap_tok t1 -> px_env cx = pe -> at_ (px_src cx) p1 u -> c_conditional c = is_cond f -> c_partial c && c_conditional c = false ->
      c_close c = None -> call_has_target (px_src cx) c = Some false -> is_sub f = false -> length (t1 ++ t :: ts ++ L) <= S (length (p_toks st)) ->
      fst (pnext (mkPst (t1 ++ t :: ts ++ L) l2 open)) = fst (pnext (mkPst (t1 ++ t :: ts ++ L) l2 byte)) -> 
      refuses cx k L (pbind (start call_target (call_fuel st) cx c CtxCall (t1 ++ t :: ts ++ L) l2 byte)
         (fun r st => pbind (arguments (call_fuel st) cx (fst r) (snd r) CtxCall st) (fun r st => POk (call_lines_end (p_line st) (fst r)) st)))).
  { intros cx c open L l2 byte st t1 Ht1 He Hat Hcd _ Hcl Htg Hsub Hst _.
    rewrite app_length in Hst. cbn [length] in Hst. rewrite app_length in Hst.
    destruct (skip call_target ltac:(cbn; tauto) cx c CtxCall t1 Ht1 t (ts ++ L) (call_fuel st) l2 byte ltac:(unfold call_fuel; lia)) as (l3 & ->).
    replace CtxCall with (ctx_of f) by (unfold ctx_of; now rewrite Hsub).
    apply (Hparse cx L He Hat call (call_fuel st - length t1) c call_fuel); try assumption.
    - rewrite Hsub. intro; discriminate.
    - unfold call_fuel. lia.
    - intro st'. right. unfold call_fuel. lia. }
  destruct f; cbn [flag_writes] in Hfl; [subst fl|destruct Hfl as (g1 & -> & Hg1)|destruct Hfl as (g1 & -> & Hg1 & Hgj)|contradiction].
  - exists (tg ++ t :: ts). replace p1 with p0 in * by (subst p1; cbn; lia). split.
    + intros L HL. rewrite <- !app_assoc. cbn [app]. apply T5; [now apply arg_noblank|]. apply Hlex. now apply Epos.
    + intros cx open L line byte He Hat. apply at_r in Hat. fold p0 in Hat. cbn [app] in Hat.
      rewrite call_parse_eq. cbv zeta. rewrite <- app_assoc. cbn [app].
      change (set_byte (snd open) (mkPst (tg ++ t :: ts ++ L) line byte)) with (mkPst (tg ++ t :: ts ++ L) line (snd open)).
      set (c0 := call_new open _). fold (fgo c0 (tg ++ t :: ts ++ L) line (snd open)).
      destruct (fgo_skip c0 t (ts ++ L) (snd open) tg T1 line) as (l' & ->).
      destruct (Hpl eq_refl) as (kk & Ek & Hkk). rewrite (flags_plain _ _ _ _ _ _ Ek Hkk). cbn [c_partial c_conditional call_new andb c0].
      apply (Hfin cx c0 0 L l' (snd open) (mkPst (ts ++ L) l' (snd open)) []); try assumption; try reflexivity; [constructor|apply new_has_no_target].
  - destruct (gap_lex (length g1) g1 (le_n _) Hg1 (p0 + 1)) as (t1 & U1 & _ & _ & _ & U5).
    replace (p0 + 1 + blen g1) with p1 in U5 by (subst p1; rewrite blen_app; change (blen [62%N]) with 1; lia).
    set (gt := Tok (TParam KPartial) p0 (p0 + 1)).
    exists (tg ++ gt :: t1 ++ t :: ts). split.
    + intros L HL. rewrite <- !app_assoc. cbn [app]. rewrite <- !app_assoc. cbn [app].
      apply T5; [cbn; split; discriminate|]. eapply (tkz _ _ [62%N]); [reflexivity|apply next_gt|reflexivity|]. cbn [next_mode]. change (blen [62%N]) with 1.
      apply U5; [now apply arg_noblank|]. apply Hlex. apply Epos. exact HL.
    + intros cx open L line byte He Hat. apply at_r in Hat. fold p0 in Hat. apply at_r in Hat. fold p1 in Hat.
      rewrite call_parse_eq. cbv zeta. rewrite <- app_assoc. cbn [app]. rewrite <- !app_assoc. cbn [app].
      set (Y := tg ++ gt :: t1 ++ t :: ts ++ L).
      change (set_byte (snd open) (mkPst Y line byte)) with (mkPst Y line (snd open)).
      set (c0 := call_new open _). fold (fgo c0 Y line (snd open)). unfold Y at 1.
      destruct (fgo_skip c0 gt (t1 ++ t :: ts ++ L) (snd open) tg T1 line) as (l' & ->).
      set (c1 := call_set_partial true c0).
      assert (Ef : flags_go c0 (Some gt) (t1 ++ t :: ts ++ L) l' (snd open)
        = (c1, fst (pnext (mkPst (t1 ++ t :: ts ++ L) l' (snd open))), snd (pnext (mkPst (t1 ++ t :: ts ++ L) l' (snd open))))) by (destruct t1; reflexivity).
      rewrite Ef. cbn [c_partial c_conditional call_new call_set_partial andb c1 c0]. set (st := snd (pnext _)).
      apply (Hfin cx c1 0 L l' (snd open) st t1); try assumption; try reflexivity.
      * apply (new_has_no_target (px_src cx) open (line_range (mkPst Y line (snd open)))).
      * subst st. destruct t1; cbn [pnext p_toks snd app length]; lia.
      * destruct t1; reflexivity.
  - destruct (gap_lex (length g1) g1 (le_n _) Hg1 (p0 + 4)) as (t1 & U1 & _ & _ & _ & U5).
    replace (p0 + 4 + blen g1) with p1 in U5 by (subst p1; rewrite blen_app; change (blen (lit "else")) with 4; lia).
    set (gt := Tok (TParam KElse) p0 (p0 + 4)).
    exists (tg ++ gt :: t1 ++ t :: ts). split.
    + intros L HL. rewrite <- !app_assoc. cbn [app]. rewrite <- !app_assoc. cbn [app].
      apply T5; [cbn; split; discriminate|].
      eapply (tkz _ _ (lit "else") (g1 ++ u ++ rest)); [reflexivity|apply next_else; apply gap_psep; [exact Hg1|destruct Hgj as [Hgj|Hgj]; [now left|right; now apply joins_psep]]|reflexivity|].
      cbn [next_mode]. change (blen (lit "else")) with 4.
      apply U5; [now apply arg_noblank|]. apply Hlex. apply Epos. exact HL.
    + intros cx open L line byte He Hat. apply at_r in Hat. fold p0 in Hat. apply at_r in Hat. fold p1 in Hat.
      rewrite call_parse_eq. cbv zeta. rewrite <- app_assoc. cbn [app]. rewrite <- !app_assoc. cbn [app].
      set (Y := tg ++ gt :: t1 ++ t :: ts ++ L).
      change (set_byte (snd open) (mkPst Y line byte)) with (mkPst Y line (snd open)).
      set (c0 := call_new open _). fold (fgo c0 Y line (snd open)). unfold Y at 1.
      destruct (fgo_skip c0 gt (t1 ++ t :: ts ++ L) (snd open) tg T1 line) as (l' & ->).
      set (c1 := call_set_conditional true c0).
      assert (Ef : flags_go c0 (Some gt) (t1 ++ t :: ts ++ L) l' (snd open)
        = (c1, fst (pnext (mkPst (t1 ++ t :: ts ++ L) l' (snd open))), snd (pnext (mkPst (t1 ++ t :: ts ++ L) l' (snd open))))) by (destruct t1; reflexivity).
      rewrite Ef. cbn [c_partial c_conditional call_new call_set_conditional andb c1 c0]. set (st := snd (pnext _)).
      apply (Hfin cx c1 0 L l' (snd open) st t1); try assumption; try reflexivity.
      * apply (new_has_no_target (px_src cx) open (line_range (mkPst Y line (snd open)))).
      * subst st. destruct t1; cbn [pnext p_toks snd app length]; lia.
      * destruct t1; reflexivity.
Qed.
