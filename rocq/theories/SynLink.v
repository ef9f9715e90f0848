(** * SynLink: lexing and parsing of the parts of a link (Spec_Source [link_part]). *)
From Coq Require Import Lia String.
From Verif Require Import Str Regex Lexer Json Ast ErrInfo Parser StrFacts RegexFacts Spec_Lexer LexerFacts CallFacts BlockFacts Spec_Source SynLex SynStr SynPath SynCall.
Open Scope nat_scope. Open Scope list_scope.
Notation at_ := SynPath.at_.

(** ** Tokens *)
Lemma nl_one s n : pat_match nl s n -> n <= 1.
Proof.
  intros [[Hn1 Hn2] Hl]. destruct n as [|[|n]]; [lia|lia|]. exfalso. destruct s as [|a [|b s]]; [cbn in Hn2; lia|cbn in Hn2; lia|].
  cbn [firstn] in Hl. inversion Hl.
Qed.
Lemma next_ltext w d rest : w <> [] -> w <> [10]%N -> (forall c, In c w -> ~ In c [92; 124; 93]%N) -> In d [92; 124; 93]%N ->
  next_token MLink (w ++ d :: rest) (TLink LText) (length w).
Proof.
  intros Hn H10 Hw Hd. destruct w as [|c w]; [congruence|]. pose proof (Hw c (or_introl eq_refl)) as Hc. cbn in Hc.
  assert (C1 : (92 =? c)%N = false) by (apply N.eqb_neq; intro; tauto). assert (C2 : (124 =? c)%N = false) by (apply N.eqb_neq; intro; tauto).
  assert (C3 : (93 =? c)%N = false) by (apply N.eqb_neq; intro; tauto).
  eapply (next_intro MLink [(nl, TLink LNewline)] (RPlus (RChr (fun c => negb (class [92; 124; 93]%N c)))) (TLink LText) (tag TLink (skipn 2 pats_link)));
    [reflexivity|discriminate| | |].
  - apply lang_plus_chr. split; [discriminate|]. apply forallb_forall. intros x Hx. specialize (Hw x Hx). cbn in Hw. apply negb_true_iff.
    unfold class. cbn. repeat (apply orb_false_iff; split); try apply N.eqb_neq; try reflexivity; intro; subst; tauto.
  - intros r k n [[= <- <-]|[]] Hm. destruct w as [|c2 w]; [|apply nl_one in Hm; cbn; lia].
    exfalso. eapply first_bound; [|exact Hm]. change ((10 =? c)%N = false). apply N.eqb_neq. intro; subst. now apply H10.
  - intros r k n Hin Hm. cbn [tag skipn pats_link map fst snd In] in Hin.
    destruct Hin as [[= <- <-]|Hin].
    { eapply chars_bound; [|exact Hm]. cbn in Hd. destruct Hd as [<-|[<-|[<-|[]]]]; reflexivity. }
    exfalso. repeat (destruct Hin as [[= <- <-]|Hin]; [eapply first_bound; [|exact Hm]; cbn -[N.eqb]; rewrite ?C1, ?C2, ?C3; reflexivity|]). contradiction.
Qed.
Lemma next_lpipe rest : next_token MLink (lit "|" ++ rest) (TLink LPipe) 1.
Proof. apply (next_concrete MLink (lit "|")); [discriminate|reflexivity|]. destruct rest; reflexivity. Qed.
Lemma next_lend rest : next_token MLink (lit "]]" ++ rest) (TLink LEnd) 2.
Proof. apply (next_concrete MLink (lit "]]")); [discriminate|reflexivity|]. destruct rest; reflexivity. Qed.
Definition lesc (e : chr) : tlink := if (e =? 110)%N then LEscapedNewline else if (e =? 124)%N then LEscapedPipe else LEscaped.
Lemma next_lesc e rest : In e [110; 124; 93]%N -> next_token MLink ([92%N; e] ++ rest) (TLink (lesc e)) 2.
Proof.
  intros [<-|[<-|[<-|[]]]]; [apply (next_concrete MLink [92; 110]%N)|apply (next_concrete MLink [92; 124]%N)|apply (next_concrete MLink [92; 93]%N)];
    try discriminate; try reflexivity; destruct rest; reflexivity.
Qed.

(** ** What the parser gathers from a part: the end of the span and the flags *)
Definition lflag (e : chr) (f : eflags) : eflags :=
  mkEf ((e =? 110)%N || ef_newline f) ((e =? 124)%N || ef_pipe f) ((e =? 93)%N || ef_bracket f).
Fixpoint lflags (w : str) (f : eflags) : eflags :=
  match w with
  | [] => f
  | c :: w1 => match (c =? 92)%N, w1 with true, e :: w' => lflags w' (lflag e f) | _, _ => lflags w1 f end
  end.
Fixpoint lend (w : str) (p d : nat) : nat :=
  match w with
  | [] => d
  | c :: w1 => match (c =? 92)%N, w1 with true, e :: w' => lend w' (p + 2) d | _, _ => lend w1 (p + clen c) (p + clen c) end
  end.
Lemma ordinary c : ~ In c [92; 124; 93]%N -> (c =? 92)%N = false.
Proof. intros H. apply N.eqb_neq. intros ->. apply H. now left. Qed.
Lemma lflags_text s w f : (forall c, In c s -> ~ In c [92; 124; 93]%N) -> lflags (s ++ w) f = lflags w f.
Proof.
  induction s as [|c s IH]; intros H; [reflexivity|]. cbn [app lflags]. rewrite (ordinary c (H c (or_introl eq_refl))).
  apply IH. intros x Hx. apply H. now right.
Qed.
Lemma lend_text s w p d : s <> [] -> (forall c, In c s -> ~ In c [92; 124; 93]%N) -> lend (s ++ w) p d = lend w (p + blen s) (p + blen s).
Proof.
  revert p d. induction s as [|c s IH]; intros p d Hn H; [congruence|]. cbn [app lend]. rewrite (ordinary c (H c (or_introl eq_refl))).
  destruct s as [|c2 s].
  - cbn [app blen]. now rewrite Nat.add_0_r.
  - rewrite IH; [|discriminate|intros x Hx; apply H; now right]. replace (blen (c :: c2 :: s)) with (clen c + blen (c2 :: s)) by reflexivity. now rewrite Nat.add_assoc.
Qed.
Lemma lesc_flags e f : In e [110; 124; 93]%N ->
  lflag e f = match lesc e with LEscapedNewline => mkEf true (ef_pipe f) (ef_bracket f) | LEscapedPipe => mkEf (ef_newline f) true (ef_bracket f) | _ => mkEf (ef_newline f) (ef_pipe f) true end.
Proof. intros [<-|[<-|[<-|[]]]]; reflexivity. Qed.

Definition part_read (pipes : bool) (w : str) (p : nat) (ts : list token) : Prop :=
  (forall d rest L, In d [124; 93]%N -> tokenizes MLink (p + blen w) (d :: rest) L -> tokenizes MLink p (w ++ d :: rest) (ts ++ L))
  /\ (pipes = false -> forall cx l f L line byte, exists byte', link_href_go cx l f (ts ++ L) line byte
        = link_href_go cx (link_set_href_span (fst (lk_href_span l), lend w p (snd (lk_href_span l))) l) (lflags w f) L line byte')
  /\ (pipes = false -> forall cx l f L line byte, exists byte', link_value cx l VLabel f (ts ++ L) line byte
        = link_value cx (link_set_label_span (fst (lk_label_span l), lend w p (snd (lk_label_span l))) l) VLabel (lflags w f) L line byte')
  /\ (forall cx l f L line byte, exists byte', link_value cx l VTitle f (ts ++ L) line byte
        = link_value cx (link_set_title_span (fst (lk_title_span l), lend w p (snd (lk_title_span l))) l) VTitle (lflags w f) L line byte').
Lemma part_reads pipes w : link_part pipes w -> forall p, exists ts, part_read pipes w p ts.
Proof.
  induction 1 as [|s w Hn H10 Hs Hw Hp IH|e w He Hp IH|w Hpp Hp IH]; intros p.
  - exists []. split; [|split; [|split]].
    + intros d rest L _ HL. cbn [blen app] in *. now rewrite Nat.add_0_r in HL.
    + intros _ cx l f L line byte. exists byte. destruct l as [? ? ? [] ? ? ? ? ?]. reflexivity.
    + intros _ cx l f L line byte. exists byte. destruct l as [? ? ? ? [] ? ? ? ?]. reflexivity.
    + intros cx l f L line byte. exists byte. destruct l as [? ? ? ? ? [] ? ? ?]. reflexivity.
  - destruct (IH (p + blen s)) as (ts & I1 & I2 & I3 & I4). exists (Tok (TLink LText) p (p + blen s) :: ts).
    unfold part_read. cbn [app]. split; [|split; [|split]].
    + intros d rest L Hd HL. rewrite <- !app_assoc. cbn [app].
      eapply (tkz _ _ s); [reflexivity| |reflexivity|].
      * destruct w as [|c w']; [apply next_ltext; try assumption; cbn in *; tauto|apply next_ltext; try assumption; now apply (Hw c w')].
      * cbn [next_mode]. apply I1; [exact Hd|]. rewrite blen_app, Nat.add_assoc in HL. exact HL.
    + intros E cx l f L line byte. rewrite lflags_text, lend_text by assumption. cbn [link_href_go t_kind t_end].
      destruct (I2 E cx (link_set_href_span (fst (lk_href_span l), p + blen s) l) f L line (p + blen s - 1)) as (b & Hb). exists b. exact Hb.
    + intros E cx l f L line byte. rewrite lflags_text, lend_text by assumption. cbn [link_value t_kind t_end].
      destruct (I3 E cx (link_set_label_span (fst (lk_label_span l), p + blen s) l) f L line (p + blen s - 1)) as (b & Hb). exists b. exact Hb.
    + intros cx l f L line byte. rewrite lflags_text, lend_text by assumption. cbn [link_value t_kind t_end].
      destruct (I4 cx (link_set_title_span (fst (lk_title_span l), p + blen s) l) f L line (p + blen s - 1)) as (b & Hb). exists b. exact Hb.
  - destruct (IH (p + 2)) as (ts & I1 & I2 & I3 & I4). exists (Tok (TLink (lesc e)) p (p + 2) :: ts).
    assert (Hb : blen [92%N; e] = 2) by (destruct He as [<-|[<-|[<-|[]]]]; reflexivity).
    unfold part_read. cbn [app]. split; [|split; [|split]].
    + intros d rest L Hd HL. change ((92%N :: e :: w) ++ d :: rest) with ([92%N; e] ++ (w ++ d :: rest)).
      eapply (tkz _ _ [92%N; e]); [reflexivity|now apply next_lesc|now rewrite Hb|].
      replace (next_mode (TLink (lesc e))) with MLink by (destruct He as [<-|[<-|[<-|[]]]]; reflexivity).
      apply I1; [exact Hd|]. change (92%N :: e :: w) with ([92%N; e] ++ w) in HL. rewrite blen_app, Hb, Nat.add_assoc in HL. exact HL.
    + intros E cx l f L line byte. cbn [lflags lend N.eqb Pos.eqb].
      destruct (I2 E cx l (lflag e f) L line (p + 2 - 1)) as (b & Hb'). exists b. rewrite <- Hb'.
      destruct He as [<-|[<-|[<-|[]]]]; reflexivity.
    + intros E cx l f L line byte. cbn [lflags lend N.eqb Pos.eqb].
      destruct (I3 E cx l (lflag e f) L line (p + 2 - 1)) as (b & Hb'). exists b. rewrite <- Hb'.
      destruct He as [<-|[<-|[<-|[]]]]; reflexivity.
    + intros cx l f L line byte. cbn [lflags lend N.eqb Pos.eqb].
      destruct (I4 cx l (lflag e f) L line (p + 2 - 1)) as (b & Hb'). exists b. rewrite <- Hb'.
      destruct He as [<-|[<-|[<-|[]]]]; reflexivity.
  - destruct (IH (p + 1)) as (ts & I1 & I2 & I3 & I4). exists (Tok (TLink LPipe) p (p + 1) :: ts).
    unfold part_read. cbn [app]. split; [|split; [|split]]; try (intros E; congruence).
    + intros d rest L Hd HL. change ((124%N :: w) ++ d :: rest) with (lit "|" ++ (w ++ d :: rest)).
      eapply (tkz _ _ (lit "|")); [reflexivity|apply next_lpipe|reflexivity|].
      cbn [next_mode]. apply I1; [exact Hd|]. change (124%N :: w) with (lit "|" ++ w) in HL. rewrite blen_app, Nat.add_assoc in HL. exact HL.
    + intros cx l f L line byte. cbn [lflags lend N.eqb Pos.eqb link_value t_kind t_end].
      destruct (I4 cx (link_set_title_span (fst (lk_title_span l), p + 1) l) f L line (p + 1 - 1)) as (b & Hb). exists b. exact Hb.
Qed.

(** ** The value of a part *)
Definition lval (e : chr) : chr := if (e =? 110)%N then 10%N else e.
Fixpoint ldec (D : chr -> bool) (s : str) : str :=
  match s with
  | [] => []
  | c :: w => match (c =? 92)%N, w with
              | true, e :: w' => if D e then lval e :: ldec D w' else 92%N :: e :: ldec D w'
              | _, _ => c :: ldec D w
              end
  end.
Lemma ldec_text D s w : (forall c, In c s -> ~ In c [92; 124; 93]%N) -> ldec D (s ++ w) = s ++ ldec D w.
Proof.
  induction s as [|c s IH]; intros H; [reflexivity|]. cbn [app ldec]. rewrite (ordinary c (H c (or_introl eq_refl))).
  rewrite IH; [reflexivity|]. intros x Hx. apply H. now right.
Qed.
Lemma decoded_text s w : (forall c, In c s -> ~ In c [92; 124; 93]%N) -> link_decoded (s ++ w) = s ++ link_decoded w.
Proof.
  induction s as [|c s IH]; intros H; [reflexivity|]. cbn [app link_decoded]. rewrite (ordinary c (H c (or_introl eq_refl))).
  rewrite IH; [reflexivity|]. intros x Hx. apply H. now right.
Qed.
Lemma replace2_text a r s w : (forall c, In c s -> ~ In c [92; 124; 93]%N) -> replace2 92%N a r (s ++ w) = s ++ replace2 92%N a r w.
Proof.
  induction s as [|c s IH]; intros H; [reflexivity|]. cbn [app]. rewrite replace2_cons by (intros ->; apply (H 92%N); cbn; tauto).
  rewrite IH; [reflexivity|]. intros x Hx. apply H. now right.
Qed.
Lemma ldec_step pipes w D a : link_part pipes w -> In a [110; 124; 93]%N -> D a = false ->
  replace2 92%N a (lval a) (ldec D w) = ldec (fun x => (x =? a)%N || D x) w.
Proof.
  intros Hw Ha HD. induction Hw as [|s w Hn H10 Hs Hw Hp IH|e w He Hp IH|w Hpp Hp IH].
  - reflexivity.
  - rewrite !ldec_text, replace2_text by assumption. now rewrite IH.
  - cbn [ldec N.eqb Pos.eqb]. destruct (N.eqb_spec e a) as [->|Hne].
    + rewrite HD. cbn [orb]. rewrite replace2_hit. now rewrite IH.
    + cbn [orb]. destruct (D e).
      * rewrite replace2_cons by (destruct He as [<-|[<-|[<-|[]]]]; discriminate). now rewrite IH.
      * rewrite replace2_cons2 by assumption. rewrite replace2_cons by (destruct He as [<-|[<-|[<-|[]]]]; discriminate). now rewrite IH.
  - cbn [ldec N.eqb Pos.eqb]. rewrite replace2_cons by discriminate. now rewrite IH.
Qed.
(** the escapes of a part *)
Fixpoint lhas (a : chr) (w : str) : bool :=
  match w with
  | [] => false
  | c :: w1 => match (c =? 92)%N, w1 with true, e :: w' => (e =? a)%N || lhas a w' | _, _ => lhas a w1 end
  end.
Lemma lhas_text a s w : (forall c, In c s -> ~ In c [92; 124; 93]%N) -> lhas a (s ++ w) = lhas a w.
Proof.
  induction s as [|c s IH]; intros H; [reflexivity|]. cbn [app lhas]. rewrite (ordinary c (H c (or_introl eq_refl))).
  apply IH. intros x Hx. apply H. now right.
Qed.
Lemma lflags_has pipes w : link_part pipes w -> forall f, lflags w f = mkEf (lhas 110%N w || ef_newline f) (lhas 124%N w || ef_pipe f) (lhas 93%N w || ef_bracket f).
Proof.
  induction 1 as [|s w Hn H10 Hs Hw Hp IH|e w He Hp IH|w Hpp Hp IH]; intros f.
  - now destruct f.
  - rewrite lflags_text, !lhas_text by assumption. apply IH.
  - cbn [lflags lhas N.eqb Pos.eqb]. rewrite IH. cbn [lflag ef_newline ef_pipe ef_bracket].
    f_equal; rewrite !orb_assoc; f_equal; apply orb_comm.
  - cbn [lflags lhas N.eqb Pos.eqb]. apply IH.
Qed.
Lemma ldec_ext pipes w D D' : link_part pipes w -> (forall x, lhas x w = true -> D x = D' x) -> ldec D w = ldec D' w.
Proof.
  induction 1 as [|s w Hn H10 Hs Hw Hp IH|e w He Hp IH|w Hpp Hp IH]; intros H.
  - reflexivity.
  - rewrite !ldec_text by assumption. f_equal. apply IH. intros x Hx. apply H. now rewrite lhas_text.
  - cbn [ldec lhas N.eqb Pos.eqb] in *. rewrite (H e) by now rewrite N.eqb_refl.
    rewrite IH; [reflexivity|]. intros x Hx. apply H. rewrite Hx. apply orb_true_r.
  - cbn [ldec lhas N.eqb Pos.eqb] in *. f_equal. apply IH, H.
Qed.
Lemma lhas_in pipes w x : link_part pipes w -> lhas x w = true -> In x [110; 124; 93]%N.
Proof.
  induction 1 as [|s w Hn H10 Hs Hw Hp IH|e w He Hp IH|w Hpp Hp IH]; intros H.
  - discriminate.
  - rewrite lhas_text in H by assumption. now apply IH.
  - cbn [lhas N.eqb Pos.eqb] in H. apply orb_true_iff in H. destruct H as [H|H]; [apply N.eqb_eq in H; now subst|now apply IH].
  - apply IH, H.
Qed.
Lemma ldec_none pipes w D : link_part pipes w -> (forall x, lhas x w = true -> D x = false) -> ldec D w = w.
Proof.
  induction 1 as [|s w Hn H10 Hs Hw Hp IH|e w He Hp IH|w Hpp Hp IH]; intros H.
  - reflexivity.
  - rewrite ldec_text by assumption. f_equal. apply IH. intros x Hx. apply H. now rewrite lhas_text.
  - cbn [ldec lhas N.eqb Pos.eqb] in *. rewrite (H e) by now rewrite N.eqb_refl.
    rewrite IH; [reflexivity|]. intros x Hx. apply H. rewrite Hx. apply orb_true_r.
  - cbn [ldec lhas N.eqb Pos.eqb] in *. f_equal. apply IH, H.
Qed.
Lemma ldec_all pipes w D : link_part pipes w -> (forall x, lhas x w = true -> D x = true) -> ldec D w = link_decoded w.
Proof.
  induction 1 as [|s w Hn H10 Hs Hw Hp IH|e w He Hp IH|w Hpp Hp IH]; intros H.
  - reflexivity.
  - rewrite ldec_text, decoded_text by assumption. f_equal. apply IH. intros x Hx. apply H. now rewrite lhas_text.
  - cbn [ldec link_decoded lhas N.eqb Pos.eqb] in *. rewrite (H e) by now rewrite N.eqb_refl.
    rewrite IH; [reflexivity|]. intros x Hx. apply H. rewrite Hx. apply orb_true_r.
  - cbn [ldec link_decoded lhas N.eqb Pos.eqb] in *. f_equal. apply IH, H.
Qed.
Lemma owned_step pipes w D a (b : bool) : link_part pipes w -> In a [110; 124; 93]%N -> D a = false -> (b = lhas a w) ->
  (if b then replace2 92%N a (lval a) (ldec D w) else ldec D w) = ldec (fun x => (x =? a)%N || D x) w.
Proof.
  intros Hw Ha HD ->. destruct (lhas a w) eqn:E; [eapply ldec_step; eassumption|].
  eapply ldec_ext; [exact Hw|]. intros x Hx. destruct (N.eqb_spec x a) as [->|]; [congruence|reflexivity].
Qed.
Lemma owned_value pipes w : link_part pipes w -> ef_owned (lflags w ef_none) w = link_decoded w.
Proof.
  intros Hw. rewrite (lflags_has _ _ Hw). unfold ef_owned, ef_none. cbn [ef_newline ef_pipe ef_bracket]. rewrite !orb_false_r.
  set (D1 := fun x => (x =? 110)%N || false). set (D2 := fun x => (x =? 124)%N || D1 x).
  assert (E1 : (if lhas 110%N w then replace2 92%N 110%N 10%N w else w) = ldec D1 w).
  { pose proof (owned_step pipes w (fun _ => false) 110%N _ Hw (or_introl eq_refl) eq_refl eq_refl) as E.
    assert (E0 : ldec (fun _ => false) w = w) by (eapply ldec_none; [exact Hw|reflexivity]). cbv beta in E. unfold str, chr in *. rewrite E0 in E. exact E. }
  assert (E2 : (if lhas 124%N w then replace2 92%N 124%N 124%N (ldec D1 w) else ldec D1 w) = ldec D2 w)
    by (apply (owned_step pipes w D1 124%N _ Hw); [cbn; tauto|reflexivity|reflexivity]).
  rewrite E1, E2.
  etransitivity; [apply (owned_step pipes w D2 93%N _ Hw); [cbn; tauto|reflexivity|reflexivity]|].
  eapply ldec_all; [exact Hw|]. intros x Hx. apply (lhas_in _ _ _ Hw) in Hx. destruct Hx as [<-|[<-|[<-|[]]]]; reflexivity.
Qed.
(** without escapes the span ends at the end of the part *)
Lemma lhas_none pipes w : link_part pipes w -> lhas 110%N w = false -> lhas 124%N w = false -> lhas 93%N w = false -> forall x, lhas x w = false.
Proof.
  intros Hw H1 H2 H3 x. destruct (lhas x w) eqn:E; [|reflexivity]. destruct (lhas_in _ _ _ Hw E) as [<-|[<-|[<-|[]]]]; congruence.
Qed.
Lemma any_none pipes w : link_part pipes w -> ef_any (lflags w ef_none) = false -> forall x, lhas x w = false.
Proof.
  intros Hw H. rewrite (lflags_has _ _ Hw) in H. unfold ef_any, ef_none in H. cbn [ef_newline ef_pipe ef_bracket] in H. rewrite !orb_false_r in H.
  apply orb_false_iff in H. destruct H as [H H3]. apply orb_false_iff in H. destruct H as [H1 H2]. eapply lhas_none; eassumption.
Qed.
Lemma lend_plain pipes w : link_part pipes w -> (forall x, lhas x w = false) -> forall p d, w <> [] -> lend w p d = p + blen w.
Proof.
  induction 1 as [|s w Hn H10 Hs Hw Hp IH|e w He Hp IH|w Hpp Hp IH]; intros H p d Hne.
  - congruence.
  - rewrite lend_text, blen_app by assumption. assert (H' : forall x, lhas x w = false) by (intros x; rewrite <- (H x); now rewrite lhas_text).
    destruct w as [|c w]; [cbn; lia|]. rewrite IH by (try assumption; discriminate). lia.
  - specialize (H e). cbn [lhas N.eqb Pos.eqb] in H. rewrite N.eqb_refl in H. discriminate.
  - cbn [lend N.eqb Pos.eqb]. change (clen 124%N) with 1. change (blen (124%N :: w)) with (1 + blen w).
    destruct w as [|c w]; [cbn; lia|]. rewrite IH by (try assumption; discriminate). lia.
Qed.
Lemma decoded_plain pipes w : link_part pipes w -> (forall x, lhas x w = false) -> link_decoded w = w.
Proof.
  intros Hw H. rewrite <- (ldec_all pipes w (fun _ => false) Hw) by (intros x E; rewrite H in E; discriminate).
  eapply ldec_none; [exact Hw|reflexivity].
Qed.

(** ** The ends of the parts *)
Definition lown (w : str) : option str := if ef_any (lflags w ef_none) then Some (link_decoded w) else None.
Lemma lown_value pipes src w p d : link_part pipes w -> at_ src p w -> w <> [] \/ d = p ->
  match lown w with Some h => Some h | None => sl src (p, lend w p d) end = Some (link_decoded w).
Proof.
  intros Hw Hat Hd. unfold lown. destruct (ef_any (lflags w ef_none)) eqn:E; [reflexivity|].
  pose proof (any_none _ _ Hw E) as Hx. rewrite (decoded_plain _ _ Hw Hx). apply (at_sl _ _ w); [exact Hat|].
  destruct w as [|c w]; [destruct Hd as [Hd|Hd]; [congruence|cbn; lia]|]. apply (lend_plain _ _ Hw Hx). discriminate.
Qed.
Lemma lown_whole pipes src w p : link_part pipes w -> at_ src p w ->
  match lown w with Some h => Some h | None => sl src (p, p + blen w) end = Some (link_decoded w).
Proof.
  intros Hw Hat. unfold lown. destruct (ef_any (lflags w ef_none)) eqn:E; [reflexivity|].
  pose proof (any_none _ _ Hw E) as Hx. rewrite (decoded_plain _ _ Hw Hx). apply (at_sl _ _ w); [exact Hat|reflexivity].
Qed.
Lemma href_end cx o ln hs ls ts w a b L line byte : link_part false w -> at_ (px_src cx) (snd o) w -> a = snd o + blen w ->
  link_href_go cx (mkLink o None ln hs ls ts None None None) (lflags w ef_none) (Tok (TLink LEnd) a b :: L) line byte
  = POk (mkLink o (Some (a, b)) ln hs ls ts (lown w) None None) (mkPst L line (b - 1)).
Proof.
  intros Hw Hat Ha. cbn [link_href_go t_kind t_end t_start]. unfold lown. destruct (ef_any (lflags w ef_none)) eqn:E; [|reflexivity].
  cbn [lk_open]. rewrite (slice_between _ _ _ w Hat Ha). rewrite (owned_value _ _ Hw). reflexivity.
Qed.
Lemma href_pipe cx o ln hs ls ts w a b L line byte : link_part false w -> at_ (px_src cx) (snd o) w -> a = snd o + blen w ->
  link_href_go cx (mkLink o None ln hs ls ts None None None) (lflags w ef_none) (Tok (TLink LPipe) a b :: L) line byte
  = link_value cx (mkLink o None ln hs (b, snd ls) ts (lown w) None None) VLabel ef_none L line (b - 1).
Proof.
  intros Hw Hat Ha. cbn [link_href_go t_kind t_end t_start]. unfold lown. destruct (ef_any (lflags w ef_none)) eqn:E; [|reflexivity].
  cbn [lk_open]. rewrite (slice_between _ _ _ w Hat Ha). rewrite (owned_value _ _ Hw). reflexivity.
Qed.
Lemma label_end cx o ln hs p q ts h w a b L line byte : link_part false w -> at_ (px_src cx) p w -> a = p + blen w ->
  link_value cx (mkLink o None ln hs (p, q) ts h None None) VLabel (lflags w ef_none) (Tok (TLink LEnd) a b :: L) line byte
  = POk (mkLink o (Some (a, b)) ln hs (p, q) ts h (lown w) None) (mkPst L line (b - 1)).
Proof.
  intros Hw Hat Ha. cbn [link_value t_kind t_end t_start]. unfold assign_if_escaped, lown. destruct (ef_any (lflags w ef_none)) eqn:E; [|reflexivity].
  cbn [lk_label_span fst]. change (fst (tspan (Tok (TLink LEnd) a b))) with a. rewrite (slice_between _ _ _ w Hat Ha). rewrite (owned_value _ _ Hw). reflexivity.
Qed.
Lemma label_pipe cx o ln hs p q ts h w a b L line byte : link_part false w -> at_ (px_src cx) p w -> a = p + blen w ->
  link_value cx (mkLink o None ln hs (p, q) ts h None None) VLabel (lflags w ef_none) (Tok (TLink LPipe) a b :: L) line byte
  = link_value cx (mkLink o None ln hs (p, p + blen w) (b, snd ts) h (lown w) None) VTitle ef_none L line (b - 1).
Proof.
  intros Hw Hat Ha. cbn [link_value t_kind t_end t_start]. unfold assign_if_escaped, lown. rewrite Ha. destruct (ef_any (lflags w ef_none)) eqn:E; [|reflexivity].
  cbn [lk_label_span link_set_label_span fst]. change (fst (tspan (Tok (TLink LPipe) (p + blen w) b))) with (p + blen w).
  rewrite (slice_between _ _ _ w Hat eq_refl). rewrite (owned_value _ _ Hw). reflexivity.
Qed.
Lemma title_end cx o ln hs ls p q h la w a b L line byte : link_part true w -> at_ (px_src cx) p w -> a = p + blen w ->
  link_value cx (mkLink o None ln hs ls (p, q) h la None) VTitle (lflags w ef_none) (Tok (TLink LEnd) a b :: L) line byte
  = POk (mkLink o (Some (a, b)) ln hs ls (p, q) h la (lown w)) (mkPst L line (b - 1)).
Proof.
  intros Hw Hat Ha. cbn [link_value t_kind t_end t_start]. unfold assign_if_escaped, lown. destruct (ef_any (lflags w ef_none)) eqn:E; [|reflexivity].
  cbn [lk_title_span fst]. change (fst (tspan (Tok (TLink LEnd) a b))) with a. rewrite (slice_between _ _ _ w Hat Ha). rewrite (owned_value _ _ Hw). reflexivity.
Qed.
