(** * BadQuote: strings with a newline in them (Spec_Bad). *)
From Coq Require Import Lia String.
From Verif Require Import Str Regex Lexer Json Ast ErrInfo Parser StrFacts RegexFacts Spec_Lexer LexerFacts CallFacts BlockFacts DocFacts Spec_Source
  SynLex SynStr SynPath SynCall SynTag SynDoc SynItem SynBlock Spec_Bad BadFacts BadParse.
Open Scope nat_scope. Open Scope list_scope.
Notation at_ := SynPath.at_.

Lemma qtok_nonblock sg q a b : nonblock (Tok (qtok sg q) a b).
Proof. destruct sg; exact I. Qed.
(** the part before the next newline *)
Lemma split_line (b : str) : exists r k, b = r ++ k /\ ~ In 10%N r /\ (k = [] \/ exists k', k = 10%N :: k').
Proof.
  induction b as [|c b (r & k & -> & Hr & Hk)]; [exists [], []; split; [reflexivity|]; split; [intros []|now left]|].
  destruct (N.eq_dec c 10%N) as [->|Hc].
  - exists [], (10%N :: r ++ k). split; [reflexivity|]. split; [intros []|right; eauto].
  - exists (c :: r), k. split; [reflexivity|]. split; [intros [E|E]; [now apply Hc|now apply Hr]|exact Hk].
Qed.
Lemma broken_body sg n : forall b p, length b <= n -> (forall c, In c b -> ~ In c [quote_of sg; 92]%N) -> exists ts, Forall nonblock ts
  /\ forall rest L, tokenizes MParam (p + blen b + 1) rest L -> tokenizes (qmode sg) p (b ++ [quote_of sg] ++ rest) (ts ++ L).
Proof.
  assert (Hq : blen [quote_of sg] = 1) by (destruct sg; reflexivity).
  assert (Hend : forall p rest L, tokenizes MParam (p + 1) rest L -> tokenizes (qmode sg) p ([quote_of sg] ++ rest) (Tok (qtok sg QEnd) p (p + 1) :: L)).
  { intros p rest L HL. rewrite <- Hq at 1. apply tkz_cons; [apply next_qend|]. rewrite qtok_mode, Hq. exact HL. }
  induction n as [|n IH]; intros b p Hn Hb.
  { destruct b; [|cbn in Hn; lia]. exists [Tok (qtok sg QEnd) p (p + 1)]. split; [repeat constructor; apply qtok_nonblock|].
    intros rest L HL. cbn [app blen] in *. apply Hend. rewrite Nat.add_0_r in HL. exact HL. }
  destruct b as [|c0 b0]; [apply IH; [cbn; lia|exact Hb]|].
  destruct (split_line (c0 :: b0)) as (r & k & E & Hr & Hk).
  destruct r as [|c r].
  - cbn [app] in E. destruct Hk as [Hk|(k' & Hk)]; [congruence|]. rewrite Hk in E. injection E as -> ->.
    destruct (IH k' (p + 1)) as (ts & T1 & T2); [cbn in Hn; lia|intros c Hc; apply Hb; now right|].
    exists (Tok (qtok sg QNewline) p (p + 1) :: ts). split; [constructor; [apply qtok_nonblock|exact T1]|].
    intros rest L HL. change (10%N :: k') with ([10%N] ++ k'). rewrite <- app_assoc. cbn [app]. change (p + 1) with (p + blen [10%N]).
    apply (tkz_cons _ _ [10%N]); [apply next_qnewline|]. rewrite qtok_mode. apply T2. change (blen (10%N :: k')) with (1 + blen k') in HL. change (blen [10%N]) with 1.
    replace (p + 1 + blen k' + 1) with (p + (1 + blen k') + 1) by lia. exact HL.
  - assert (Hlen : length k <= n) by (apply (f_equal (@length _)) in E; cbn in E, Hn; rewrite app_length in E; unfold str, chr in *; lia).
    rewrite E. destruct (IH k (p + blen (c :: r)) Hlen) as (ts & T1 & T2); [intros x Hx; apply Hb; rewrite E; apply in_or_app; now right|].
    exists (Tok (qtok sg QText) p (p + blen (c :: r)) :: ts). split; [constructor; [apply qtok_nonblock|exact T1]|].
    intros rest L HL. rewrite <- app_assoc. cbn [app]. change (c :: r ++ k ++ quote_of sg :: rest) with ((c :: r) ++ k ++ [quote_of sg] ++ rest). apply tkz_cons.
    + apply next_qtext_nl; [discriminate| |].
      * intros x Hx. assert (Hb' : ~ In x [quote_of sg; 92]%N) by (apply Hb; rewrite E; apply in_or_app; now left). cbn in Hb'.
        split; [intros ->; apply Hb'; tauto|]. split; [intros ->; apply Hb'; tauto|]. intros ->. now apply Hr.
      * destruct Hk as [->|(k' & ->)]; cbn; tauto.
    + rewrite qtok_mode. apply T2. rewrite blen_app, !Nat.add_assoc in HL. exact HL.
Qed.
Lemma broken_quote sg s p : broken_string sg s -> exists ts, Forall nonblock ts
  /\ (forall rest L, tokenizes MParam (p + blen s) rest L ->
        tokenizes MParam p (s ++ rest) (Tok (TParam (if sg then KSingleQuote else KDoubleQuote)) p (p + 1) :: ts ++ L))
  /\ forall cx L tail line byte, Forall nonblock tail -> refuses cx SLiteralNewline L (string_parse cx (qlit sg) (p, p + 1) (mkPst ((ts ++ tail) ++ L) line byte)).
Proof.
  intros [w b Hw Hb]. assert (Hq : blen [quote_of sg] = 1) by (destruct sg; reflexivity).
  set (p1 := p + 1). set (p2 := p1 + blen w).
  destruct (broken_body sg (length b) b (p2 + 1) (le_n _) Hb) as (ts & T1 & T2).
  set (tx := match w with [] => [] | _ => [Tok (qtok sg QText) p1 p2] end).
  exists (tx ++ Tok (qtok sg QNewline) p2 (p2 + 1) :: ts).
  assert (Htx : Forall nonblock tx) by (destruct w; repeat constructor; apply qtok_nonblock).
  split; [apply Forall_app; split; [exact Htx|constructor; [apply qtok_nonblock|exact T1]]|]. split.
  - intros rest L HL. rewrite <- !app_assoc. subst p1. rewrite <- Hq. apply tkz_cons; [apply next_quote|].
    replace (next_mode (TParam (if sg then KSingleQuote else KDoubleQuote))) with (qmode sg) by (destruct sg; reflexivity). rewrite Hq in *.
    assert (Hrest : tokenizes (qmode sg) p2 ([10%N] ++ b ++ [quote_of sg] ++ rest) (Tok (qtok sg QNewline) p2 (p2 + 1) :: ts ++ L)).
    { change (p2 + 1) with (p2 + blen [10%N]) at 1. apply (tkz_cons _ _ [10%N]); [apply next_qnewline|]. rewrite qtok_mode. apply T2.
      rewrite !blen_app, Hq in HL. change (blen [10%N]) with 1 in HL. subst p2.
      replace (p + 1 + blen w + 1 + blen b + 1) with (p + (1 + (blen w + (1 + (blen b + 1))))) by lia. exact HL. }
    destruct w as [|c w]; [cbn [app] in *; subst p2; cbn [blen] in *; rewrite Nat.add_0_r in *; exact Hrest|].
    subst tx. cbn [app]. change (c :: w ++ 10%N :: b ++ quote_of sg :: rest) with ((c :: w) ++ [10%N] ++ b ++ [quote_of sg] ++ rest). apply tkz_cons.
    + apply next_qtext_nl; [discriminate| |cbn; tauto]. intros x Hx. specialize (Hw x Hx). cbn in Hw. repeat split; intros ->; apply Hw; tauto.
    + rewrite qtok_mode. exact Hrest.
  - intros cx L tail line byte Ht. unfold string_parse. cbn [snd p_toks p_line p_byte]. rewrite <- !app_assoc. cbn [app].
    assert (H : forall stop byte', refuses cx SLiteralNewline L (string_go cx (qlit sg) (p + 1) stop false false (Tok (qtok sg QNewline) p2 (p2 + 1) :: ts ++ tail ++ L) line byte')).
    { intros stop byte'. rewrite string_go_eq. cbn [t_kind]. rewrite qtok_lit. rewrite app_assoc. apply refuses_perr. apply Forall_app; auto. }
    subst tx. destruct w as [|c w]; cbn [app]; [apply H|]. rewrite string_go_eq. cbn [t_kind]. rewrite qtok_lit. apply H.
Qed.
