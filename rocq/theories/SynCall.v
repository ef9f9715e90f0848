(** * SynCall: lexing and parsing of printed literals, arguments, sub-expressions and calls (Spec_Source). *)
From Coq Require Import Lia String.
From Verif Require Import Str Regex Lexer Json Ast ErrInfo Parser StrFacts RegexFacts Spec_Lexer LexerFacts CallFacts Spec_Source SynLex SynStr SynPath.
Open Scope nat_scope. Open Scope list_scope.

Lemma tkz m p w rest s k e l : s = w ++ rest -> next_token m (w ++ rest) k (length w) -> e = p + blen w -> tokenizes (next_mode k) e rest l ->
  tokenizes m p s (Tok k p e :: l).
Proof. intros -> H -> HL. now apply tkz_cons. Qed.

(** ** Further tokens of parameter mode *)
Lemma next_bool (b : bool) rest : psep rest ->
  next_token MParam (lit (if b then "true" else "false") ++ rest) (TParam (if b then KTrue else KFalse)) (length (lit (if b then "true" else "false"))).
Proof.
  intros (d & r & -> & Hd). cbn in Hd. destruct b; [conc (lit "true")|conc (lit "false")];
    (repeat (destruct Hd as [<-|Hd]; [reflexivity|]); contradiction).
Qed.
Lemma next_null rest : psep rest -> next_token MParam (lit "null" ++ rest) (TParam KNull) 4.
Proof. intros (d & r & -> & Hd). cbn in Hd. conc (lit "null"). repeat (destruct Hd as [<-|Hd]; [reflexivity|]). contradiction. Qed.
Lemma next_open_sub rest : next_token MParam ([40%N] ++ rest) (TParam KStartSub) 1.
Proof. conc [40%N]. destruct rest; reflexivity. Qed.
Lemma next_close_sub rest : next_token MParam ([41%N] ++ rest) (TParam KEndSub) 1.
Proof. conc [41%N]. destruct rest; reflexivity. Qed.
Lemma next_space c rest : c <> 32%N -> c <> 9%N -> next_token MParam ([32%N] ++ c :: rest) (TParam KWhiteSpace) 1.
Proof.
  intros H1 H2. apply N.eqb_neq in H1, H2. pose proof H1 as H1'. pose proof H2 as H2'. rewrite N.eqb_sym in H1', H2'.
  conc [32%N]. follow. rewrite ?H1, ?H2, ?H1', ?H2'. reflexivity.
Qed.

(** ** First characters *)
Definition first_ok (s : str) : Prop := exists c r, s = c :: r /\ ~ In c [123; 126; 9; 32; 35; 47; 33; 125; 62]%N.
Lemma first_app s u : first_ok s -> first_ok (s ++ u).
Proof. intros (c & r & -> & H). exists c, (r ++ u). auto. Qed.
Lemma ident_first c : is_ident c = true -> ~ In c [123; 126; 9; 32; 35; 47; 33; 125; 62]%N.
Proof. intros H Hin. cbn in Hin. repeat (destruct Hin as [<-|Hin]; [vm_compute in H; discriminate|]). contradiction. Qed.
Lemma idents_first w : w <> [] -> forallb ident_char w = true -> first_ok w.
Proof. rewrite ident_chars. intros Hw H. destruct w as [|c w]; [congruence|]. exists c, w. split; [reflexivity|]. apply ident_first. cbn in H. now apply andb_true_iff in H. Qed.
Lemma name_first_ok w : name_ok w -> first_ok w.
Proof. intros (H1 & H2 & _). apply idents_first; [destruct w; [contradiction|discriminate]|exact H2]. Qed.
Lemma lit_first c r : forallb (fun x => negb (N.eqb x c)) [123; 126; 9; 32; 35; 47; 33; 125; 62]%N = true -> first_ok (c :: r).
Proof.
  intro H. exists c, r. split; [reflexivity|]. intro Hin. rewrite forallb_forall in H. specialize (H _ Hin).
  now rewrite N.eqb_refl in H.
Qed.
Lemma head_first h : head_ok h -> first_ok (head_text h).
Proof.
  intro H. destruct h as [w| |s|k w|w|w]; cbn [head_text]; [..|contradiction].
  - now apply name_first_ok.
  - now apply lit_first.
  - now apply (lit_first 46%N).
  - destruct H as [Hk _]. destruct k as [|k]; [lia|]. now apply (lit_first 46%N).
  - now apply (lit_first 64%N).
Qed.
Lemma path_first_ok h t : head_ok h -> first_ok (path_text h t).
Proof. intro H. apply first_app. now apply head_first. Qed.
(** the first character of an argument is not white space *)
Definition arg_first (s : str) : Prop := exists c r, s = c :: r /\ c <> 9%N /\ c <> 32%N.
Lemma first_arg s : first_ok s -> arg_first s.
Proof. intros (c & r & -> & Hc). exists c, r. split; [reflexivity|]. split; intros ->; apply Hc; cbn; tauto. Qed.
Lemma expr_first pe ly e u : expr_ok pe e -> expr_writes ly e u -> arg_first u.
Proof.
  intros H Hw. destruct Hw as [sg l|w|s|b| |h t|c g u g' _ _ _]; cbn [expr_text]; [..|inversion H as [| | | | |? ? [Hh|(w & -> & Hw)] ?|]; subst; [apply first_arg; now apply path_first_ok|now exists 47%N, (w ++ tail_text t)]|]; apply first_arg.
  - destruct sg; now apply lit_first.
  - now apply lit_first.
  - inversion H; subst. destruct (number_first s) as (c & w & -> & Hc); [assumption|]. apply lit_first.
    cbn in Hc. repeat (destruct Hc as [<-|Hc]; [reflexivity|]). contradiction.
  - destruct b; now apply lit_first.
  - now apply lit_first.
  - now apply lit_first.
Qed.

(** ** White space *)
Definition noblank (rest : str) : Prop := match rest with c :: _ => c <> 9%N /\ c <> 32%N | [] => True end.
Lemma arg_noblank s rest : arg_first s -> noblank (s ++ rest).
Proof. intros (c & r & -> & H). exact H. Qed.
Lemma next_blanks w rest : w <> [] -> blank_str w -> noblank rest -> next_token MParam (w ++ rest) (TParam KWhiteSpace) (length w).
Proof.
  intros Hw Hb Hr. destruct w as [|c w]; [congruence|].
  assert (Hc : In c [32; 9]%N) by (apply Hb; now left).
  assert (X : forall r k n, In (r, k) (tag TParam pats_param) -> pat_match r ((c :: w) ++ rest) n -> k = TParam KWhiteSpace \/ False).
  { intros r k n Hin Hm. left. destruct (re_first r c) eqn:Ef; [|exfalso; eapply first_bound; [exact Ef|exact Hm]].
    assert (F : forallb (fun rk => negb (re_first (fst rk) c) || match snd rk with TParam KWhiteSpace => true | _ => false end) (tag TParam pats_param) = true)
      by (cbn in Hc; destruct Hc as [<-|[<-|[]]]; reflexivity).
    apply (forallb_in _ _ _ F) in Hin. cbn [fst snd] in Hin. rewrite Ef in Hin. cbn in Hin. destruct k as [| | | |[]| | | |]; try discriminate Hin. reflexivity. }
  eapply (next_intro MParam (tag TParam (firstn 18 pats_param)) (RPlus (RChr (class [32; 9]%N))) (TParam KWhiteSpace) (tag TParam (skipn 19 pats_param)));
    [reflexivity|discriminate| | |].
  - apply lang_plus_chr. split; [discriminate|]. apply forallb_forall. intros x Hx. specialize (Hb x Hx). cbn in Hb. unfold class. cbn -[N.eqb].
    destruct Hb as [<-|[<-|[]]]; reflexivity.
  - intros r' k' n' Hin Hm. exfalso.
    assert (Hin' : In (r', k') (tag TParam pats_param)) by (rewrite <- (firstn_skipn 18 pats_param), tag_app; apply in_or_app; now left).
    destruct (X _ _ _ Hin' Hm) as [->|[]]. clear -Hin. cbn in Hin. repeat (destruct Hin as [Hin|Hin]; [discriminate|]). contradiction.
  - intros r' k' n' Hin Hm.
    assert (E : (r', k') = (RPlus (RChr (class [32; 9]%N)), TParam KWhiteSpace)).
    { destruct Hin as [Hin|Hin]; [symmetry; exact Hin|]. exfalso.
      assert (Hin' : In (r', k') (tag TParam pats_param)) by (rewrite <- (firstn_skipn 19 pats_param), tag_app; apply in_or_app; now right).
      destruct (X _ _ _ Hin' Hm) as [->|[]]. clear -Hin. cbn in Hin. repeat (destruct Hin as [Hin|Hin]; [discriminate|]). contradiction. }
    injection E as -> ->. destruct rest as [|d rest]; [destruct Hm as [[_ Hm] _]; now rewrite app_nil_r in Hm|].
    eapply chars_bound; [|exact Hm]. cbn in Hr. destruct Hr as [R1 R2]. apply N.eqb_neq in R1, R2. cbn -[N.eqb]. rewrite R1, R2. reflexivity.
Qed.
Lemma next_nl rest : next_token MParam ([10%N] ++ rest) (TParam KNewline) 1.
Proof. conc [10%N]. destruct rest; reflexivity. Qed.
Definition gap_tok (t : token) : Prop := t_kind t = TParam KWhiteSpace \/ t_kind t = TParam KNewline.
Lemma blank_split g : gap_str g -> exists b r, g = b ++ r /\ blank_str b /\ gap_str r /\ match r with [] => True | c :: _ => c = 10%N end.
Proof.
  induction g as [|c g IH]; intros H; [exists [], []; repeat split; try (intros ? []); reflexivity|].
  destruct IH as (b & r & E & Hb & Hr & Hc); [intros x Hx; apply H; now right|].
  pose proof (H c (or_introl eq_refl)) as Hc0. cbn in Hc0. destruct Hc0 as [<-|[<-|[<-|[]]]].
  - exists (32%N :: b), r. rewrite E. repeat split; try assumption. intros x [<-|Hx]; [cbn; tauto|now apply Hb].
  - exists (9%N :: b), r. rewrite E. repeat split; try assumption. intros x [<-|Hx]; [cbn; tauto|now apply Hb].
  - exists [], (10%N :: g). repeat split; [intros ? []|exact H].
Qed.
Lemma gap_lex n : forall g, length g <= n -> gap_str g -> forall p, exists ts, Forall gap_tok ts /\ (ts = [] -> g = []) /\ (g = [] -> ts = [])
  /\ length ts <= length g
  /\ forall rest L, noblank rest -> tokenizes MParam (p + blen g) rest L -> tokenizes MParam p (g ++ rest) (ts ++ L).
Proof.
  induction n as [|n IH]; intros g Hn Hg p.
  - destruct g; [|cbn in Hn; lia]. exists []. repeat split; try constructor. intros rest L _ HL. cbn in *. now rewrite Nat.add_0_r in HL.
  - destruct (blank_split g Hg) as (b & r & -> & Hb & Hr & Hc). destruct b as [|c b].
    + destruct r as [|c r].
      * exists []. repeat split; try constructor. intros rest L _ HL. cbn in *. now rewrite Nat.add_0_r in HL.
      * subst c. destruct (IH r) with (p := p + 1) as (ts & T1 & T2 & T3 & T4 & T5); [cbn in Hn; lia|intros x Hx; apply Hr; now right|].
        exists (Tok (TParam KNewline) p (p + 1) :: ts). repeat split; try discriminate; [constructor; [now right|exact T1]|cbn; lia|].
        intros rest L Hrest HL. cbn [app]. eapply (tkz _ _ [10%N]); [reflexivity|apply next_nl|reflexivity|]. cbn [next_mode].
        apply T5; [exact Hrest|]. cbn [app blen] in HL. change (clen 10%N) with 1 in HL. now rewrite Nat.add_assoc in HL.
    + destruct (IH r) with (p := p + blen (c :: b)) as (ts & T1 & T2 & T3 & T4 & T5); [cbn in Hn; rewrite app_length in Hn; lia|exact Hr|].
      exists (Tok (TParam KWhiteSpace) p (p + blen (c :: b)) :: ts). repeat split; try discriminate; [constructor; [now left|exact T1]|cbn [length]; rewrite app_length; cbn [length]; lia|].
      intros rest L Hrest HL. rewrite <- app_assoc. cbn [app]. eapply (tkz _ _ (c :: b)); [reflexivity| |reflexivity|].
      * apply next_blanks; [discriminate|exact Hb|]. destruct r as [|d r]; [exact Hrest|]. cbn. subst d. split; discriminate.
      * cbn [next_mode]. apply T5; [exact Hrest|]. rewrite blen_app, Nat.add_assoc in HL. exact HL.
Qed.
Lemma between_gap ly g : between ly g -> gap_str g /\ g <> [].
Proof. destruct ly; [intros ->; split; [|discriminate]; intros c [<-|[]]; cbn; tauto|auto]. Qed.
Lemma around_gap ly g : around ly g -> gap_str g.
Proof. destruct ly; [intros ->; intros c []|auto]. Qed.
Lemma after_gt_gap ly g : after_gt ly g -> gap_str g.
Proof. destruct ly; [intros ->; intros c [<-|[]]; cbn; tauto|auto]. Qed.
Lemma blank_gap_str ly g : blank_gap ly g -> blank_str g.
Proof. destruct ly; [intros ->; intros c []|auto]. Qed.
Lemma gap_psep g rest : gap_str g -> g <> [] \/ psep rest -> psep (g ++ rest).
Proof.
  intros Hg H. destruct g as [|c g]; [destruct H as [H|H]; [congruence|exact H]|].
  exists c, (g ++ rest). split; [reflexivity|]. specialize (Hg c (or_introl eq_refl)). cbn in Hg |- *. tauto.
Qed.
(** skipping white space in front of the arguments *)
Definition start (f : nat -> pctx -> call -> option token -> call_ctx -> pst -> pres pst (call * option token)) fuel cx c ctx Y line byte :=
  f fuel cx c (fst (pnext (mkPst Y line byte))) ctx (snd (pnext (mkPst Y line byte))).
Lemma skip f : In f [arguments; kv_loop; call_target] -> forall cx c ctx g, Forall gap_tok g -> forall z L fuel line byte, length g <= fuel ->
  exists line', start f fuel cx c ctx (g ++ z :: L) line byte = f (fuel - length g) cx c (Some z) ctx (mkPst L line' byte).
Proof.
  intros Hf cx c ctx g Hg. induction Hg as [|t g Ht _ IH]; intros z L fuel line byte Hfu.
  - exists line. cbn [app length]. now rewrite Nat.sub_0_r.
  - destruct fuel as [|fuel]; [cbn in Hfu; lia|]. cbn [length] in Hfu.
    cbn [app]. unfold start. cbn [pnext p_toks p_line p_byte fst snd length Nat.sub].
    assert (E : exists l1, f (S fuel) cx c (Some t) ctx (mkPst (g ++ z :: L) line byte) = start f fuel cx c ctx (g ++ z :: L) l1 byte).
    { cbn [In] in Hf. destruct Hf as [<-|[<-|[<-|[]]]]; destruct Ht as [Ht|Ht].
      1,2: rewrite arguments_eq, Ht; eexists; reflexivity.
      1,2: rewrite kv_loop_eq, Ht; eexists; reflexivity.
      1,2: rewrite call_target_eq, Ht; eexists; reflexivity. }
    destruct E as (l1 & ->). destruct (IH z L fuel l1 byte ltac:(lia)) as (l2 & E2). exists l2. exact E2.
Qed.
Lemma split_gap pre : forall g z R Y, Forall gap_tok pre -> ~ gap_tok z -> g ++ z :: R = pre ++ Y -> exists g2, g = pre ++ g2 /\ Y = g2 ++ z :: R.
Proof.
  induction pre as [|t pre IH]; intros g z R Y Hp Hz E; [exists g; split; [reflexivity|symmetry; exact E]|].
  inversion Hp as [|? ? Ht Hp']; subst. destruct g as [|t' g].
  - cbn in E. injection E as -> _. contradiction.
  - cbn in E. injection E as -> E. destruct (IH g z R Y Hp' Hz E) as (g2 & -> & ->). exists g2. split; reflexivity.
Qed.
(** the parser is somewhere in the white space at the start of [X] *)
Definition inside (X Y : list token) : Prop := exists pre, X = pre ++ Y /\ Forall gap_tok pre.
Lemma inside_refl X : inside X X.
Proof. exists []. split; [reflexivity|constructor]. Qed.
(** what may follow an argument *)
Definition good_after (X : list token) : Prop :=
  match X with [] => False | x :: X' => stop_tok x \/ (t_kind x = TParam KNewline /\ X' <> []) end.
Lemma after_lands X line : good_after X -> exists nx L line', lands X line nx L line' /\ inside X (nx :: L).
Proof.
  destruct X as [|x X]; [contradiction|]. intros [H|[Hk Hn]].
  - exists x, X, line. split; [left; auto|apply inside_refl].
  - destruct X as [|y X]; [congruence|]. exists y, X, (S line). split; [right; exists x; auto|]. exists [x]. split; [reflexivity|]. constructor; [now right|constructor].
Qed.

(** ** Induction over the ways of writing *)
Scheme expr_writes_i := Induction for expr_writes Sort Prop
  with call_writes_i := Induction for call_writes Sort Prop
  with args_write_i := Induction for args_write Sort Prop
  with hash_writes_i := Induction for hash_writes Sort Prop.
Combined Scheme writes_ind from expr_writes_i, call_writes_i, args_write_i, hash_writes_i.

(** ** Values *)
Definition expr_good (ly : layout) (pe : penv) (e : expr) (s : str) : Prop := forall p, exists k en ts,
  arg_action k = AaValue /\ ~ gap_tok (Tok (TParam k) p en)
  /\ (forall rest L, psep rest -> tokenizes MParam (p + blen s) rest L ->
        tokenizes MParam p (s ++ rest) (Tok (TParam k) p en :: ts ++ L))
  /\ forall cx fuel X line byte, px_env cx = pe -> at_ (px_src cx) p s -> good_after X -> 4 * S (length ts) <= fuel ->
       exists v nx L line' byte', value_ fuel cx k (Tok (TParam k) p en) (mkPst (ts ++ X) line byte) = POk (v, Some nx) (mkPst L line' byte')
                       /\ inside X (nx :: L) /\ param_is ly pe (px_src cx) v e.

Lemma arg_value k : arg_kind k -> arg_action k = AaValue /\ val_action k = VaPath.
Proof. unfold arg_kind, start_kind. cbn. intros [[<-|[<-|[<-|[<-|[<-|[]]]]]]| ->]; repeat split. Qed.
Lemma start_value k : start_kind k -> arg_action k = AaValue /\ val_action k = VaPath /\ tgt_action k = TaPath.
Proof. unfold start_kind. cbn. intros [<-|[<-|[<-|[<-|[<-|[]]]]]]; repeat split. Qed.
Lemma value_not_gap k p en : arg_action k = AaValue -> ~ gap_tok (Tok (TParam k) p en).
Proof. intros H [E|E]; cbn in E; injection E as ->; discriminate H. Qed.
Lemma good_cons X : good_after X -> exists x X', X = x :: X'.
Proof. destruct X as [|x X]; [contradiction|]. intros _. now exists x, X. Qed.

Lemma str_good ly pe sg l : sitems_ok (quote_of sg) l -> expr_good ly pe (EStr sg l) (expr_text (EStr sg l)).
Proof.
  intros Hl p. destruct (quote_body sg (length l) l (p + 1) (le_n _) Hl) as (ts & Hlex & Hparse & Hlen).
  assert (Hq : blen [quote_of sg] = 1) by (destruct sg; reflexivity).
  exists (if sg then KSingleQuote else KDoubleQuote), (p + 1), ts. split; [destruct sg; reflexivity|]. split; [apply value_not_gap; destruct sg; reflexivity|]. split.
  - intros rest L Hr HL. cbn [expr_text]. rewrite <- !app_assoc. rewrite <- Hq. apply tkz_cons; [apply next_quote|].
    replace (next_mode (TParam (if sg then KSingleQuote else KDoubleQuote))) with (qmode sg) by (destruct sg; reflexivity).
    rewrite Hq. apply Hlex. cbn [expr_text] in HL. rewrite !blen_app, Hq in HL. unfold sitems_text in *.
    replace (p + 1 + blen (flat_map (sitem_text (quote_of sg)) l) + 1) with (p + (1 + (blen (flat_map (sitem_text (quote_of sg)) l) + 1))) by lia. exact HL.
  - intros cx fuel X line byte He Hat HX Hf. destruct (good_cons X HX) as (nx & L & ->). destruct fuel as [|fuel]; [lia|].
    destruct (Hparse cx (p + 1) (p + 1) false false (nx :: L) line byte) as (b & Eb).
    cbn [orb] in Eb. pose proof Hat as Hat0. cbn [expr_text] in Hat. apply at_r in Hat. rewrite Hq in Hat. apply at_l in Hat.
    fold (sitems_text (quote_of sg) l) in Hat.
    rewrite value_eq. replace (val_action (if sg then KSingleQuote else KDoubleQuote)) with VaJson by (destruct sg; reflexivity).
    assert (Hsl : sl (px_src cx) (p + 1, match l with [] => p + 1 | _ => p + 1 + blen (sitems_text (quote_of sg) l) end) = Some (sitems_text (quote_of sg) l)).
    { destruct l as [|x l]; [|now apply at_sl]. apply at_sl; [exact Hat|]. cbn. lia. }
    set (sp := (p + 1, match l with [] => p + 1 | _ => p + 1 + blen (sitems_text (quote_of sg) l) end)) in *.
    set (fl := mkRaw (has_newline l) (has_quote l) (qlit sg)) in *.
    assert (Hv : (if has_escapes fl then raw_owned fl (sitems_text (quote_of sg) l) else sitems_text (quote_of sg) l) = map (sitem_value (quote_of sg)) l)
      by (rewrite <- (raw_owned_items (quote_of sg) l (qlit sg)); [fold fl; subst fl; unfold has_escapes, raw_owned; cbn [rl_newline rl_delim rl_type];
            destruct (has_newline l), (has_quote l); reflexivity|..]; try assumption; destruct sg; try reflexivity; discriminate).
    assert (Hs : string_literal cx (qlit sg) (p, p + 1) (mkPst (ts ++ nx :: L) line byte) = POk (JStr (map (sitem_value (quote_of sg)) l), sp) (mkPst (nx :: L) line b)).
    { unfold string_literal, string_parse. cbn [snd p_toks p_line p_byte]. rewrite Eb. cbn [pbind]. fold sp fl. rewrite Hsl. cbn [pslice]. now rewrite Hv. }
    assert (Hj : json_literal cx (if sg then KSingleQuote else KDoubleQuote) (Tok (TParam (if sg then KSingleQuote else KDoubleQuote)) p (p + 1)) (mkPst (ts ++ nx :: L) line byte)
                 = POk (JStr (map (sitem_value (quote_of sg)) l), (p, snd sp + 1)) (mkPst (nx :: L) line b)).
    { destruct sg; unfold json_literal; cbn [lit_of_param]; unfold qlit in Hs;
        [change (tspan (Tok (TParam KSingleQuote) p (p + 1))) with (p, p + 1)|change (tspan (Tok (TParam KDoubleQuote) p (p + 1))) with (p, p + 1)];
        rewrite Hs; reflexivity. }
    rewrite Hj. cbn [pbind fst snd pnext p_toks p_line p_byte]. eexists _, nx, L, line, b. split; [reflexivity|]. split; [apply inside_refl|]. constructor.
    apply at_sl; [exact Hat0|]. cbn [expr_text]. rewrite !blen_app, Hq. unfold sp, sitems_text. destruct l as [|x l]; cbn [snd]; [cbn [flat_map]; change (blen []) with 0|]; lia.
Qed.

Lemma arr_good ly pe w : (forall c, In c w -> c <> 93%N /\ c <> 10%N) -> w <> [92%N] -> expr_good ly pe (EArr w) (expr_text (EArr w)).
Proof.
  intros H2 H3 p. set (p1 := p + 1). set (p2 := p1 + blen w).
  set (tx := match w with [] => [] | _ => [Tok (TArray QText) p1 p2] end).
  exists KStartArray, p1, (tx ++ [Tok (TArray QEnd) p2 (p2 + 1)]). split; [reflexivity|]. split; [now apply value_not_gap|]. split.
  - intros rest L Hr HL. cbn [expr_text]. rewrite <- !app_assoc. cbn [app].
    eapply (tkz _ _ [91%N]); [reflexivity|apply next_open_array|reflexivity|]. cbn [next_mode]. change (blen [91%N]) with 1. fold p1.
    assert (Hend : tokenizes MArray p2 ([93%N] ++ rest) (Tok (TArray QEnd) p2 (p2 + 1) :: L)).
    { eapply (tkz _ _ [93%N]); [reflexivity|apply next_close_array|reflexivity|]. cbn [next_mode]. cbn [expr_text] in HL. rewrite !blen_app in HL.
      change (blen [91%N]) with 1 in HL. change (blen [93%N]) with 1 in *. subst p2 p1. rewrite !Nat.add_assoc in HL. exact HL. }
    subst tx. destruct w as [|c w].
    + cbn [app] in *. replace p1 with p2 by (subst p2; cbn; lia). exact Hend.
    + cbn [app]. eapply (tkz _ _ (c :: w)); [reflexivity|apply (next_array_text (c :: w)); [discriminate|exact H2|exact H3]|reflexivity|exact Hend].
  - intros cx fuel X line byte He Hat HX Hf. destruct (good_cons X HX) as (nx & L & ->). destruct fuel as [|fuel]; [lia|].
    rewrite value_eq. cbn [val_action]. unfold json_literal. cbn [lit_of_param]. unfold string_literal, string_parse. cbn [tspan t_start t_end snd p_toks p_line p_byte].
    assert (Hw : sl (px_src cx) (p1, p2) = Some w).
    { apply at_sl; [|reflexivity]. cbn [expr_text] in Hat. apply at_r in Hat. now apply at_l in Hat. }
    assert (Hgo : exists b, string_go cx LArray p1 p1 false false ((tx ++ [Tok (TArray QEnd) p2 (p2 + 1)]) ++ nx :: L) line byte
                    = POk ((p1, p2), mkRaw false false LArray) (mkPst (nx :: L) line b)).
    { subst tx. destruct w as [|c w]; cbn [app].
      - exists byte. rewrite string_go_eq. cbn [t_kind lit_token]. replace p2 with p1 by (subst p2; cbn; lia). reflexivity.
      - exists (p2 - 1). rewrite string_go_eq. cbn [t_kind t_end lit_token]. rewrite string_go_eq. reflexivity. }
    destruct Hgo as (b & Hgo). rewrite Hgo. cbn [pbind]. rewrite Hw. cbn [pslice has_escapes rl_newline rl_delim orb pbind fst snd pnext p_toks p_line p_byte].
    eexists _, nx, L, line, b. split; [reflexivity|]. split; [apply inside_refl|]. constructor.
    apply at_sl; [exact Hat|]. cbn [expr_text]. rewrite !blen_app. change (blen [91%N]) with 1. change (blen [93%N]) with 1. subst p2 p1. lia.
Qed.
Lemma word_good ly pe e w k v : In k [KNumber; KTrue; KFalse; KNull] ->
  (forall rest, psep rest -> next_token MParam (w ++ rest) (TParam k) (length w)) ->
  (forall cx p st, px_env cx = pe -> at_ (px_src cx) p w -> json_literal cx k (Tok (TParam k) p (p + blen w)) st = POk (v, (p, p + blen w)) st) ->
  (forall src sp ln, sl src sp = Some w -> param_is ly pe src (VJson v sp ln) e) -> expr_good ly pe e w.
Proof.
  intros Hk Hnext Hj His p. exists k, (p + blen w), [].
  assert (Hact : arg_action k = AaValue /\ val_action k = VaJson /\ next_mode (TParam k) = MParam)
    by (cbn in Hk; destruct Hk as [<-|[<-|[<-|[<-|[]]]]]; repeat split).
  destruct Hact as (A1 & A2 & A3). split; [exact A1|]. split; [now apply value_not_gap|]. split.
  - intros rest L Hr HL. cbn [app]. apply tkz_cons; [now apply Hnext|]. now rewrite A3.
  - intros cx fuel X line byte He Hat HX Hf. destruct (good_cons X HX) as (nx & L & ->). destruct fuel as [|fuel]; [lia|]. rewrite value_eq, A2. cbn [app].
    rewrite Hj by assumption. cbn [pbind fst snd pnext p_toks p_line p_byte]. eexists _, nx, L, line, byte. split; [reflexivity|]. split; [apply inside_refl|]. apply His. apply at_sl; [exact Hat | reflexivity].
Qed.

(** ** Arguments *)
(** the token that ends a call, and what the argument parser returns there *)
Definition end_tok (ctx : call_ctx) (t : token) : Prop := t_kind t = TParam (match ctx with CtxSub => KEndSub | CtxCall => KEnd end).
Definition after_end (ctx : call_ctx) (L : list token) : option token * list token :=
  match ctx with
  | CtxCall => (None, L)
  | CtxSub => match L with [] => (None, []) | t :: L => (Some t, L) end
  end.
Definition call_more (vs : list param) (ps : list (str * param)) (c : call) : call :=
  let 'mkCall p k o cl t a h l := c in mkCall p k o cl t (a ++ vs) (h ++ ps) l.
(** tokens start with white space, or there are none *)
Definition starts_gap (ts : list token) : Prop := match ts with [] => True | t :: _ => gap_tok t end.
Lemma end_stop ctx t : end_tok ctx t -> stop_tok t.
Proof. intro H. unfold stop_tok. rewrite H. destruct ctx; eexists; (split; [reflexivity|]); cbn; tauto. Qed.
Lemma end_not_gap ctx t : end_tok ctx t -> ~ gap_tok t.
Proof. intros H [E|E]; rewrite H in E; destruct ctx; discriminate E. Qed.
Lemma after_good ts gz ctx t L : starts_gap ts -> Forall gap_tok gz -> end_tok ctx t -> good_after (ts ++ gz ++ t :: L).
Proof.
  assert (W : forall x X, gap_tok x -> X <> [] -> good_after (x :: X)).
  { intros x X [E|E] HX; [left; exists KWhiteSpace; split; [exact E|cbn; tauto]|right; split; [exact E|exact HX]]. }
  intros Hs Hg Ht. destruct ts as [|x ts].
  - destruct gz as [|x gz]; [left; eapply end_stop, Ht|]. inversion Hg; subst. cbn [app]. apply W; [assumption|]. intro E. now apply app_eq_nil in E.
  - cbn [app]. apply W; [exact Hs|]. intro E. apply app_eq_nil in E. destruct E as [_ E]. apply app_eq_nil in E. now destruct E.
Qed.
Lemma assoc_set_new {A} k (v : A) l : ~ In k (map fst l) -> assoc_set k v l = l ++ [(k, v)].
Proof.
  induction l as [|[k' v'] l IH]; intro H; [reflexivity|]. cbn. cbn in H.
  destruct (streq k k') eqn:E; [exfalso; apply H; left; symmetry; now apply streq_eq in E|].
  f_equal. apply IH. tauto.
Qed.
Lemma hash_psep ly hash s rest : hash_writes ly hash s -> psep rest -> psep (s ++ rest).
Proof.
  intros H Hr. destruct H as [|k e l g u r Hg _ _]; [exact Hr|]. rewrite <- app_assoc. apply between_gap in Hg. destruct Hg as [G1 G2].
  apply gap_psep; [exact G1|now left].
Qed.
Lemma args_psep ly args s rest : args_write ly args s -> psep rest -> psep (s ++ rest).
Proof.
  intros H Hr. destruct H as [|e l g u r Hg _ _]; [exact Hr|]. rewrite <- app_assoc. apply between_gap in Hg. destruct Hg as [G1 G2].
  apply gap_psep; [exact G1|now left].
Qed.

(** the hash arguments [hash], written [s] *)
Definition hash_good (ly : layout) (pe : penv) (hash : list (str * expr)) (s : str) : Prop := forall p, exists ts, starts_gap ts
    /\ (forall rest L, psep rest -> tokenizes MParam (p + blen s) rest L -> tokenizes MParam p (s ++ rest) (ts ++ L))
    /\ forall f cx fuel c gz t L Y ctx line byte,
         In f [arguments; kv_loop] -> px_env cx = pe -> at_ (px_src cx) p s -> end_tok ctx t -> Forall gap_tok gz ->
         inside (ts ++ gz ++ t :: L) Y -> 4 * (length Y - length L) <= fuel ->
         NoDup (map fst (c_params c) ++ map fst hash) ->
         exists ps line' byte',
           start f fuel cx c ctx Y line byte
           = POk (call_exit (tspan t) (call_more [] ps c), fst (after_end ctx L)) (mkPst (snd (after_end ctx L)) line' byte')
           /\ Forall2 (fun kp kv => fst kp = fst kv /\ param_is ly pe (px_src cx) (snd kp) (snd kv)) ps hash.
(** the arguments [args] and hash arguments [hash], written [s] *)
Definition args_good (ly : layout) (pe : penv) (args : list expr) (hash : list (str * expr)) (s : str) : Prop := forall p, exists ts, starts_gap ts
    /\ (forall rest L, psep rest -> tokenizes MParam (p + blen s) rest L -> tokenizes MParam p (s ++ rest) (ts ++ L))
    /\ forall cx fuel c gz t L Y ctx line byte, px_env cx = pe -> at_ (px_src cx) p s -> end_tok ctx t -> Forall gap_tok gz ->
         inside (ts ++ gz ++ t :: L) Y -> 4 * (length Y - length L) <= fuel -> NoDup (map fst (c_params c) ++ map fst hash) ->
         exists vs ps line' byte',
           start arguments fuel cx c ctx Y line byte
           = POk (call_exit (tspan t) (call_more vs ps c), fst (after_end ctx L)) (mkPst (snd (after_end ctx L)) line' byte')
           /\ Forall2 (param_is ly pe (px_src cx)) vs args
           /\ Forall2 (fun kp kv => fst kp = fst kv /\ param_is ly pe (px_src cx) (snd kp) (snd kv)) ps hash.

Lemma inside_len X Y : inside X Y -> length Y <= length X.
Proof. intros (pre & -> & _). rewrite app_length. lia. Qed.
Lemma skip_in f : In f [arguments; kv_loop] -> In f [arguments; kv_loop; call_target].
Proof. cbn. tauto. Qed.

Lemma hash_nil ly pe : hash_good ly pe [] [].
Proof.
  intro p. exists []. split; [exact I|]. split; [intros rest L _ HL; cbn in *; now rewrite Nat.add_0_r in HL|].
  intros f cx fuel c gz t L Y ctx line byte Hf He _ Ht Hgz (pre & EY & Hpre) Hfu _. cbn [app] in EY.
  destruct (split_gap pre gz t L Y Hpre (end_not_gap _ _ Ht) EY) as (g2 & -> & ->).
  apply Forall_app in Hgz. destruct Hgz as [_ Hg2]. rewrite app_length in Hfu. cbn [length] in Hfu.
  destruct (skip f (skip_in f Hf) cx c ctx g2 Hg2 t L fuel line byte ltac:(lia)) as (line' & ->).
  destruct (fuel - length g2) as [|fuel'] eqn:Ef; [lia|].
  exists [], line', byte. split; [|constructor].
  replace (call_more [] [] c) with c by (destruct c; cbn; now rewrite !app_nil_r).
  cbn [In] in Hf. destruct Hf as [<-|[<-|[]]]; [rewrite arguments_eq|rewrite kv_loop_eq]; rewrite Ht; destruct ctx; try reflexivity;
    cbn [arg_action kv_action]; destruct L; reflexivity.
Qed.
Lemma hash_cons ly pe k e hash g u r : between ly g -> expr_ok pe e -> expr_writes ly e u -> expr_good ly pe e u -> key_ok k -> hash_writes ly hash r ->
  hash_good ly pe hash r -> hash_good ly pe ((k, e) :: hash) (g ++ (k ++ [61%N]) ++ u ++ r).
Proof.
  intros Hg He Hu Hge Hk Hwr IH p. apply between_gap in Hg. destruct Hg as [G1 G2].
  destruct (gap_lex (length g) g (le_n _) G1 p) as (tg & T1 & T2 & _ & _ & T5).
  set (p1 := p + blen g). set (p2 := p1 + blen (k ++ [61%N])).
  assert (E12 : p1 + blen k + 1 = p2) by (subst p2; rewrite blen_app; change (blen [61%N]) with 1; lia).
  destruct (Hge p2) as (kk & en & ts1 & Hact & _ & Hlex1 & Hparse1).
  destruct (IH (p2 + blen u)) as (ts2 & Hsp2 & Hlex2 & Hparse2).
  set (kt := Tok (TParam KHashKey) p1 p2).
  exists (tg ++ kt :: (Tok (TParam kk) p2 en :: ts1) ++ ts2).
  split; [destruct tg as [|x tg]; [exfalso; now apply G2, T2|now inversion T1]|]. split.
  - intros rest L Hr HL. rewrite <- !app_assoc. cbn [app]. rewrite <- app_assoc.
    apply T5; [apply arg_noblank, first_arg; destruct Hk; now apply idents_first|]. fold p1.
    eapply (tkz _ _ (k ++ [61%N])); [now rewrite <- app_assoc|now apply next_key|reflexivity|]. cbn [next_mode]. fold p2.
    apply Hlex1; [eapply hash_psep; eassumption|]. apply Hlex2; [exact Hr|].
    rewrite !blen_app in HL. subst p2 p1. rewrite blen_app.
    replace (p + blen g + (blen k + blen [61%N]) + blen u + blen r) with (p + (blen g + (blen k + blen [61%N] + (blen u + blen r)))) by lia. exact HL.
  - intros f cx fuel c gz t L Y ctx line byte Hf Henv Hat Ht Hgz (pre & EY & Hpre) Hfu Hnd.
    rewrite <- app_assoc in EY. cbn [app] in EY.
    assert (Hkt : ~ gap_tok kt) by (intros [E|E]; discriminate E).
    destruct (split_gap pre tg kt _ Y Hpre Hkt EY) as (g2 & Etg & ->). clear EY.
    assert (Hg2 : Forall gap_tok g2) by (rewrite Etg in T1; now apply Forall_app in T1).
    rewrite app_length in Hfu. cbn [length] in Hfu. rewrite <- !app_assoc in Hfu. rewrite !app_length in Hfu. cbn [length] in Hfu.
    destruct (skip f (skip_in f Hf) cx c ctx g2 Hg2 kt (Tok (TParam kk) p2 en :: (ts1 ++ ts2) ++ gz ++ t :: L) fuel line byte ltac:(lia)) as (line1 & ->).
    destruct (fuel - length g2) as [|[|fuel']] eqn:Ef; [lia..|].
    apply at_r in Hat. fold p1 in Hat. pose proof (at_l _ _ _ _ (at_l _ _ _ _ Hat)) as Hatk. apply at_r in Hat. fold p2 in Hat.
    pose proof (at_l _ _ _ _ Hat) as Hate. apply at_r in Hat.
    destruct (Hparse1 cx fuel' (ts2 ++ gz ++ t :: L) line1 byte Henv Hate (after_good _ _ _ _ _ Hsp2 Hgz Ht) ltac:(lia)) as (v & nx & L' & line2 & b1 & E1 & Hin & Hv).
    set (c1 := call_add_parameter k v c).
    assert (Hc1 : c_params c1 = c_params c ++ [(k, v)]).
    { subst c1. destruct c. cbn. apply assoc_set_new. cbn in Hnd. intro Hi. apply NoDup_remove_2 in Hnd. apply Hnd. apply in_or_app. now left. }
    assert (Hcm : forall ps, call_more [] ps c1 = call_more [] ((k, v) :: ps) c).
    { intro ps. subst c1. destruct c. cbn in Hc1 |- *. rewrite Hc1, <- app_assoc. reflexivity. }
    pose proof (inside_len _ _ Hin) as Hlen. rewrite !app_length in Hlen. cbn [length] in Hlen.
    destruct (Hparse2 kv_loop cx fuel' c1 gz t L (nx :: L') ctx line2 b1 (or_intror (or_introl eq_refl)) Henv Hat Ht Hgz Hin ltac:(cbn [length]; lia)) as (ps & line3 & b2 & E2 & Hps).
    { rewrite Hc1, map_app. cbn [map fst]. rewrite <- app_assoc. exact Hnd. }
    assert (Hkv : key_value (S fuel') cx c kt ctx (mkPst (Tok (TParam kk) p2 en :: (ts1 ++ ts2) ++ gz ++ t :: L) line1 byte)
                  = POk (call_exit (tspan t) (call_more [] ((k, v) :: ps) c), fst (after_end ctx L)) (mkPst (snd (after_end ctx L)) line3 b2)).
    { rewrite key_value_eq. unfold kt. cbn [t_start t_end]. rewrite <- E12, Nat.add_sub. rewrite (at_slice _ _ _ Hatk). cbn [pslice app p_toks p_line p_byte t_kind].
      rewrite E12, <- app_assoc, E1. cbn [pbind fst snd]. fold c1. unfold start in E2. cbn [pnext p_toks p_line p_byte fst snd] in E2. rewrite E2. now rewrite Hcm. }
    exists ((k, v) :: ps), line3, b2. split; [|constructor; [split; [reflexivity|exact Hv]|exact Hps]].
    rewrite <- Hkv. cbn [In] in Hf. destruct Hf as [<-|[<-|[]]]; [rewrite arguments_eq|rewrite kv_loop_eq]; reflexivity.
Qed.
Lemma args_nil ly pe hash s : hash_good ly pe hash s -> args_good ly pe [] hash s.
Proof.
  intros H p. destruct (H p) as (ts & Hs & Hlex & Hparse). exists ts. split; [exact Hs|]. split; [exact Hlex|].
  intros cx fuel c gz t L Y ctx line byte He Hat Ht Hgz HY Hf Hnd.
  destruct (Hparse arguments cx fuel c gz t L Y ctx line byte (or_introl eq_refl) He Hat Ht Hgz HY Hf Hnd) as (ps & l & b & E & Hps).
  exists [], ps, l, b. split; [exact E|]. split; [constructor|exact Hps].
Qed.
Lemma args_cons ly pe e args hash g u r : between ly g -> expr_ok pe e -> expr_writes ly e u -> expr_good ly pe e u ->
  (forall rest, psep rest -> psep (r ++ rest)) ->
  args_good ly pe args hash r -> args_good ly pe (e :: args) hash (g ++ u ++ r).
Proof.
  intros Hg He Hu Hge Hwr IH p. apply between_gap in Hg. destruct Hg as [G1 G2].
  destruct (gap_lex (length g) g (le_n _) G1 p) as (tg & T1 & T2 & _ & _ & T5).
  set (p2 := p + blen g).
  destruct (Hge p2) as (kk & en & ts1 & Hact & Hng & Hlex1 & Hparse1).
  destruct (IH (p2 + blen u)) as (ts2 & Hsp2 & Hlex2 & Hparse2).
  set (kt := Tok (TParam kk) p2 en) in *.
  exists (tg ++ (kt :: ts1) ++ ts2).
  split; [destruct tg as [|x tg]; [exfalso; now apply G2, T2|now inversion T1]|]. split.
  - intros rest L Hr HL. rewrite <- !app_assoc.
    apply T5; [apply arg_noblank; eapply expr_first; eassumption|]. fold p2.
    cbn [app]. apply Hlex1; [now apply Hwr|]. apply Hlex2; [exact Hr|].
    rewrite !blen_app in HL. subst p2. rewrite Nat.add_assoc, Nat.add_assoc in HL. exact HL.
  - intros cx fuel c gz t L Y ctx line byte Henv Hat Ht Hgz (pre & EY & Hpre) Hfu Hnd.
    rewrite <- app_assoc in EY. cbn [app] in EY.
    destruct (split_gap pre tg kt _ Y Hpre Hng EY) as (g2 & Etg & ->). clear EY.
    assert (Hg2 : Forall gap_tok g2) by (rewrite Etg in T1; now apply Forall_app in T1).
    rewrite app_length in Hfu. cbn [length] in Hfu. rewrite <- !app_assoc in Hfu. rewrite !app_length in Hfu. cbn [length] in Hfu.
    destruct (skip arguments (or_introl eq_refl) cx c ctx g2 Hg2 kt ((ts1 ++ ts2) ++ gz ++ t :: L) fuel line byte ltac:(lia)) as (line1 & ->).
    destruct (fuel - length g2) as [|fuel'] eqn:Ef; [lia|].
    apply at_r in Hat. fold p2 in Hat. pose proof (at_l _ _ _ _ Hat) as Hate. apply at_r in Hat.
    destruct (Hparse1 cx fuel' (ts2 ++ gz ++ t :: L) line1 byte Henv Hate (after_good _ _ _ _ _ Hsp2 Hgz Ht) ltac:(lia)) as (v & nx & L' & line2 & b1 & E1 & Hin & Hv).
    pose proof (inside_len _ _ Hin) as Hlen. rewrite !app_length in Hlen. cbn [length] in Hlen.
    destruct (Hparse2 cx fuel' (call_add_argument v c) gz t L (nx :: L') ctx line2 b1 Henv Hat Ht Hgz Hin ltac:(cbn [length]; lia)) as (vs & ps & line3 & b2 & E2 & Hvs & Hps).
    { destruct c. exact Hnd. }
    exists (v :: vs), ps, line3, b2. split; [|split; [constructor; assumption|exact Hps]].
    rewrite arguments_eq. unfold kt. cbn [t_kind]. rewrite Hact. fold kt. rewrite <- app_assoc, E1. cbn [pbind fst snd].
    unfold start in E2. cbn [pnext p_toks p_line p_byte fst snd] in E2. rewrite E2.
    destruct c. cbn. rewrite <- !app_assoc. reflexivity.
Qed.

(** ** Calls: the target and the arguments up to the closing token *)
Definition callx_good (ly : layout) (pe : penv) (x : callx) (u : str) : Prop := first_ok u /\ forall p, exists k en ts,
  start_kind k
  /\ (forall rest L, psep rest -> tokenizes MParam (p + blen u) rest L ->
        tokenizes MParam p (u ++ rest) (Tok (TParam k) p en :: ts ++ L))
  /\ forall cx fuel1 c gz t L ctx line byte, px_env cx = pe -> at_ (px_src cx) p u -> end_tok ctx t -> Forall gap_tok gz ->
       1 <= fuel1 -> c_params c = [] ->
       exists q b1 nx l1 line1,
         call_target fuel1 cx c (Some (Tok (TParam k) p en)) ctx (mkPst (ts ++ gz ++ t :: L) line byte)
         = POk (call_set_target (TPath q) c, Some nx) (mkPst l1 line1 b1)
         /\ (forall w a hs, x = Call (HdName w) [] a hs ->
               path_is_simple q = true /\ path_str (px_src cx) q = Some w /\ exists comp cs, pa_comps q = comp :: cs /\ comp_str (px_src cx) comp = Some w)
         /\ forall fuel2, 4 * (length (ts ++ gz) + 1) <= fuel2 \/ 4 * (length l1 + 1) <= fuel2 -> exists vs ps line2 b2,
            arguments fuel2 cx (call_set_target (TPath q) c) (Some nx) ctx (mkPst l1 line1 b1)
            = POk (call_exit (tspan t) (call_more vs ps (call_set_target (TPath q) c)), fst (after_end ctx L)) (mkPst (snd (after_end ctx L)) line2 b2)
            /\ forall pt cd op cl ln, call_is ly pe (px_src cx) pt cd (mkCall pt cd op (Some cl) (TPath q) vs ps ln) x.

Lemma call_good ly pe h t args hash s : head_ok h -> tail_ok t -> args_good ly pe args hash s -> (forall rest, psep rest -> psep (s ++ rest)) ->
  NoDup (map fst hash) -> callx_good ly pe (Call h t args hash) (path_text h t ++ s).
Proof.
  intros Hh Ht Hag Hps0 Hnd. split; [apply first_app; now apply path_first_ok|]. intro p.
  destruct (path_good h t p Hh Ht) as (k & en & ts1 & Hk & Hlex1 & Hparse1).
  destruct (Hag (p + blen (path_text h t))) as (ts2 & Hsp2 & Hlex2 & Hparse2).
  destruct (start_value k Hk) as (K1 & K2 & K3).
  exists k, en, (ts1 ++ ts2). split; [exact Hk|]. split.
  - intros rest L Hr HL. rewrite <- app_assoc. rewrite <- app_assoc. apply Hlex1.
    + now apply Hps0.
    + apply Hlex2; [exact Hr|]. rewrite blen_app, Nat.add_assoc in HL. exact HL.
  - intros cx fuel1 c gz tk L ctx line byte Henv Hat Htk Hgz Hf1 Hcp.
    destruct (after_lands (ts2 ++ gz ++ tk :: L) line (after_good _ _ _ _ _ Hsp2 Hgz Htk)) as (nx & L' & line1 & Hland & Hin).
    destruct (Hparse1 cx (ts2 ++ gz ++ tk :: L) nx L' line line1 byte (at_l _ _ _ _ Hat) Hland) as (q & b1 & E1 & Hq & _ & Hqn).
    pose proof (inside_len _ _ Hin) as Hlen. rewrite !app_length in Hlen. cbn [length] in Hlen.
    exists q, b1, nx, L', line1. split; [|split].
    + destruct fuel1 as [|fuel1]; [lia|]. rewrite call_target_eq. cbn [t_kind]. rewrite K3, <- app_assoc, E1. reflexivity.
    + intros w a hs [= -> -> -> ->]. destruct Hq as (_ & _ & _ & _ & _ & _ & Hs & Hst).
      split; [exact Hs|]. split; [rewrite Hst; unfold path_shown; cbn; now rewrite app_nil_r|]. now apply Hqn.
    + intros fuel2 Hf2. rewrite !app_length in Hf2.
      destruct (Hparse2 cx fuel2 (call_set_target (TPath q) c) gz tk L (nx :: L') ctx line1 b1 Henv (at_r _ _ _ _ Hat) Htk Hgz Hin ltac:(cbn [length]; lia)) as (vs & ps & line2 & b2 & E2 & Hvs & Hps).
      { destruct c. cbn in Hcp |- *. now rewrite Hcp. }
      exists vs, ps, line2, b2. unfold start in E2. cbn [pnext p_toks p_line p_byte fst snd] in E2.
      split; [exact E2|]. intros pt cd op cl ln. now constructor.
Qed.

Lemma sub_good ly pe x g u g' : around ly g -> around ly g' -> call_writes ly x u -> callx_good ly pe x u ->
  expr_good ly pe (ESub x) ([40%N] ++ g ++ u ++ g' ++ [41%N]).
Proof.
  intros Hg Hg' Hw [Hfirst Hx] p. pose proof (around_gap _ _ Hg) as G. pose proof (around_gap _ _ Hg') as G'.
  destruct (gap_lex (length g) g (le_n _) G (p + 1)) as (tg & T1 & _ & _ & _ & T5).
  set (p1 := p + 1 + blen g) in *.
  destruct (Hx p1) as (k & en & ts & Hk & Hlex & Hparse).
  destruct (gap_lex (length g') g' (le_n _) G' (p1 + blen u)) as (tg' & T1' & _ & _ & _ & T5').
  set (e1 := p1 + blen u + blen g') in *.
  set (ke := Tok (TParam KEndSub) e1 (e1 + 1)).
  exists KStartSub, (p + 1), (tg ++ Tok (TParam k) p1 en :: ts ++ tg' ++ [ke]).
  split; [reflexivity|]. split; [now apply value_not_gap|]. split.
  - intros rest L Hr HL. rewrite <- !app_assoc. cbn [app]. rewrite <- !app_assoc. cbn [app].
    eapply (tkz _ _ [40%N]); [reflexivity|apply next_open_sub|reflexivity|]. cbn [next_mode].
    change (blen [40%N]) with 1. apply T5; [apply arg_noblank, first_arg, Hfirst|]. fold p1. apply Hlex.
    + apply gap_psep; [exact G'|]. right. exists 41%N, rest. split; [reflexivity|]. cbn. tauto.
    + apply T5'; [cbn; split; discriminate|]. fold e1. eapply (tkz _ _ [41%N]); [reflexivity|apply next_close_sub|reflexivity|]. cbn [next_mode].
      rewrite !blen_app in HL. change (blen [40%N]) with 1 in HL. change (blen [41%N]) with 1 in *.
      subst e1 p1. replace (p + 1 + blen g + blen u + blen g' + 1) with (p + (1 + (blen g + (blen u + (blen g' + 1))))) by lia. exact HL.
  - intros cx fuel X line byte Henv Hat HX Hf. rewrite app_length in Hf. cbn [length] in Hf. rewrite !app_length in Hf. cbn [length] in Hf.
    destruct (good_cons X HX) as (nx & L & ->). destruct fuel as [|[|fuel]]; [lia..|]. pose proof Hat as Hat0.
    apply at_r in Hat. change (blen [40%N]) with 1 in Hat. apply at_r in Hat. fold p1 in Hat. apply at_l in Hat.
    set (TS := tg ++ Tok (TParam k) p1 en :: ts ++ tg' ++ ke :: nx :: L).
    set (c0 := call_new (p, p + 1) (line_range (mkPst TS line (p + 1)))).
    destruct (skip call_target ltac:(cbn; tauto) cx c0 CtxSub tg T1 (Tok (TParam k) p1 en) (ts ++ tg' ++ ke :: nx :: L) fuel line (p + 1) ltac:(lia)) as (line1 & Esk).
    destruct (Hparse cx (fuel - length tg) c0 tg' ke (nx :: L) CtxSub line1 (p + 1) Henv Hat eq_refl T1' ltac:(lia) eq_refl)
      as (q & b1 & nx1 & l1 & line2 & E1 & _ & H2).
    destruct (H2 fuel ltac:(left; rewrite app_length; lia)) as (vs & ps & line3 & b2 & E2 & His).
    rewrite value_eq. cbn [val_action]. change (tspan (Tok (TParam KStartSub) p (p + 1))) with (p, p + 1). rewrite sub_expr_eq.
    assert (ETS : (tg ++ Tok (TParam k) p1 en :: ts ++ tg' ++ [ke]) ++ nx :: L = TS).
    { unfold TS. rewrite <- app_assoc. cbn [app]. rewrite <- !app_assoc. reflexivity. }
    rewrite ETS. cbv zeta. change (set_byte (snd (p, p + 1)) (mkPst TS line byte)) with (mkPst TS line (p + 1)). fold c0. fold TS in Esk. unfold start in Esk.
    rewrite Esk, E1. cbn [pbind fst snd]. rewrite E2. cbn [pbind fst snd].
    eexists _, nx, L, line3, b2. split; [reflexivity|]. split; [apply inside_refl|].
    apply is_sub with (u := [40%N] ++ g ++ u ++ g' ++ [41%N]); [apply His| |now constructor].
    unfold call_str. cbn [c_close c_open call_exit call_more call_set_target call_new call_lines_end c0 fst snd tspan t_start t_end ke].
    rewrite (slice_between _ _ (e1 + 1) _ Hat0); [reflexivity|]. rewrite !blen_app.
    change (blen [40%N]) with 1. change (blen [41%N]) with 1. subst e1 p1. lia.
Qed.

Lemma all_good ly pe :
  (forall e s, expr_writes ly e s -> expr_ok pe e -> expr_good ly pe e s)
  /\ (forall c s, call_writes ly c s -> callx_ok pe c -> callx_good ly pe c s)
  /\ (forall args s, args_write ly args s -> Forall (expr_ok pe) args ->
        forall hash sh, hash_writes ly hash sh -> hash_good ly pe hash sh -> args_good ly pe args hash (s ++ sh))
  /\ (forall hash s, hash_writes ly hash s -> Forall (fun kv => key_ok (fst kv) /\ expr_ok pe (snd kv)) hash -> hash_good ly pe hash s).
Proof.
  apply writes_ind.
  - intros sg l H. inversion H; subst. now apply str_good.
  - intros w H. inversion H; subst. now apply arr_good.
  - intros s H. inversion H as [| |? n ? Hp| | | |]; subst. apply (word_good ly pe (ENum s) s KNumber (JNum n)); [cbn; tauto| | |now constructor].
    + intros rest Hr. now apply next_number.
    + intros cx p st He Hat. unfold json_literal. change (tspan (Tok (TParam KNumber) p (p + blen s))) with (p, p + blen s).
      rewrite (at_sl _ p s _ Hat eq_refl). cbn [pslice]. rewrite He, Hp. reflexivity.
  - intros b _. replace (expr_text (EBool b)) with (lit (if b then "true" else "false")) by (destruct b; reflexivity).
    apply (word_good ly pe (EBool b) _ (if b then KTrue else KFalse) (JBool b));
      [destruct b; cbn; tauto| | |intros ? ? ? Hw; constructor; destruct b; exact Hw].
    + intros rest Hr. now apply next_bool.
    + intros cx p st _ _. destruct b; reflexivity.
  - intros _. apply (word_good ly pe ENull (lit "null") KNull JNull); [cbn; tauto| | |intros ? ? ? Hw; constructor; exact Hw].
    + intros rest Hr. now apply next_null.
    + reflexivity.
  - intros h t H p. inversion H; subst. destruct (arg_path_good h t p) as (k & en & ts & Hk & Hlex & Hparse); [assumption..|].
    destruct (arg_value k Hk) as (K1 & K2). exists k, en, ts. split; [exact K1|]. split; [now apply value_not_gap|]. split; [exact Hlex|].
    intros cx fuel X line byte _ Hat HX Hf. destruct fuel as [|fuel]; [lia|].
    destruct (after_lands X line HX) as (nx & L & line1 & Hland & Hin).
    destruct (Hparse cx X nx L line line1 byte Hat Hland) as (q & b & E & Hq & _ & _).
    rewrite value_eq, K2, E. cbn [pbind fst snd]. eexists _, nx, L, line1, b. split; [reflexivity|]. split; [exact Hin|]. now constructor.
  - intros c g u g' Hg Hw IH Hg' H. inversion H; subst. apply sub_good; try assumption. now apply IH.
  - intros h t args hash sa sh Ha IHa Hh IHh H. inversion H; subst. apply call_good; try assumption.
    + apply IHa; try assumption. now apply IHh.
    + intros rest Hr. rewrite <- app_assoc. eapply args_psep; [eassumption|]. eapply hash_psep; eassumption.
  - intros _ hash sh _ Hh. now apply args_nil.
  - intros e l g u r Hg Hu IHu Hr IHr H hash sh Hwh Hh. inversion H; subst. rewrite <- !app_assoc. apply args_cons; try assumption.
    + now apply IHu.
    + intros rest Hp. rewrite <- app_assoc. eapply args_psep; [eassumption|]. eapply hash_psep; eassumption.
    + now apply IHr.
  - intros _. apply hash_nil.
  - intros k e l g u r Hg Hu IHu Hr IHr H. inversion H as [|? ? [Hk He] Hok]; subst. cbn [fst snd] in Hk, He. apply hash_cons; try assumption; [now apply IHu|now apply IHr].
Qed.
Lemma callxs_good ly pe x s : call_writes ly x s -> callx_ok pe x -> callx_good ly pe x s.
Proof. intro H. now apply all_good. Qed.

(** ** What may be called in a tag: written [u]; [R] holds of the call that is read *)
Definition body_good (pe : penv) (u : str) (R : pctx -> target -> list param -> list (str * param) -> Prop) : Prop := first_ok u /\ forall p, exists k en ts,
  (forall c toks line byte, flags_go c (Some (Tok (TParam k) p en)) toks line byte = (c, Some (Tok (TParam k) p en), mkPst toks line byte))
  /\ (forall rest L, psep rest -> tokenizes MParam (p + blen u) rest L ->
        tokenizes MParam p (u ++ rest) (Tok (TParam k) p en :: ts ++ L))
  /\ forall cx fuel1 c gz t L line byte, px_env cx = pe -> at_ (px_src cx) p u -> end_tok CtxCall t -> Forall gap_tok gz ->
       4 * S (length ts) <= fuel1 -> c_params c = [] ->
       exists tg b1 nx l1 line1,
         call_target fuel1 cx c (Some (Tok (TParam k) p en)) CtxCall (mkPst (ts ++ gz ++ t :: L) line byte)
         = POk (call_set_target tg c, Some nx) (mkPst l1 line1 b1)
         /\ forall fuel2, 4 * (length l1 + 1) <= fuel2 -> exists vs ps line2 b2,
            arguments fuel2 cx (call_set_target tg c) (Some nx) CtxCall (mkPst l1 line1 b1)
            = POk (call_exit (tspan t) (call_more vs ps (call_set_target tg c)), None) (mkPst L line2 b2)
            /\ R cx tg vs ps.
Definition call_body (ly : layout) (pe : penv) (x : callx) (cx : pctx) (tg : target) (vs : list param) (ps : list (str * param)) : Prop :=
  (forall pt cd op cl ln, call_is ly pe (px_src cx) pt cd (mkCall pt cd op (Some cl) tg vs ps ln) x)
  /\ forall w a hs, x = Call (HdName w) [] a hs ->
       target_str (px_src cx) tg = Some w
       /\ exists q, tg = TPath q /\ path_is_simple q = true /\ exists comp cs, pa_comps q = comp :: cs /\ comp_str (px_src cx) comp = Some w.
Definition dyn_body (ly : layout) (pe : penv) (x : callx) (xs : list expr) (hs : list (str * expr)) (cx : pctx) (tg : target) (vs : list param) (ps : list (str * param)) : Prop :=
  forall pt op cl ln, dyn_is ly pe (px_src cx) pt (mkCall pt false op (Some cl) tg vs ps ln) x xs hs.
Lemma flags_stop c k p e toks line byte : start_kind k ->
  flags_go c (Some (Tok (TParam k) p e)) toks line byte = (c, Some (Tok (TParam k) p e), mkPst toks line byte).
Proof. unfold start_kind. cbn [In]. intros [<-|[<-|[<-|[<-|[<-|[]]]]]]; destruct toks; reflexivity. Qed.
Lemma call_body_good ly pe x u : call_writes ly x u -> callx_ok pe x -> body_good pe u (call_body ly pe x).
Proof.
  intros Hw Hx. destruct (callxs_good ly pe x u Hw Hx) as [Hfirst Hgood]. split; [exact Hfirst|]. intro p.
  destruct (Hgood p) as (k & en & ts & Hk & Hlex & Hparse). exists k, en, ts. split; [intros; now apply flags_stop|]. split; [exact Hlex|].
  intros cx fuel1 c gz t L line byte He Hat Ht Hgz Hf Hp.
  destruct (Hparse cx fuel1 c gz t L CtxCall line byte He Hat Ht Hgz ltac:(lia) Hp) as (q & b1 & nx & l1 & line1 & E1 & Hname & H2).
  exists (TPath q), b1, nx, l1, line1. split; [exact E1|]. intros fuel2 Hf2. destruct (H2 fuel2 (or_intror Hf2)) as (vs & ps & line2 & b2 & E2 & His).
  exists vs, ps, line2, b2. split; [exact E2|]. split; [exact His|]. intros w a hs Ex. destruct (Hname w a hs Ex) as (N1 & N2 & N3). split; [exact N2|]. now exists q.
Qed.
Lemma dyn_body_good ly pe x xs hs u : dyn_writes ly x xs hs u -> callx_ok pe x -> args_ok pe xs hs -> body_good pe u (dyn_body ly pe x xs hs).
Proof.
  intros (u1 & sa & sh & -> & Hu & Ha & Hh) Hx (Ox & Oh & Hnd).
  assert (Hpsep : forall rest, psep rest -> psep ((sa ++ sh) ++ rest)) by (intros rest Hr; rewrite <- app_assoc; eapply args_psep; [eassumption|]; eapply hash_psep; eassumption).
  assert (Hargs : args_good ly pe xs hs (sa ++ sh)) by (apply all_good; try assumption; now apply all_good).
  assert (Hsub : expr_good ly pe (ESub x) u1) by (apply all_good; [exact Hu|now constructor]).
  assert (Hlead : exists r, u1 = 40%N :: r) by (inversion Hu; subst; eexists; reflexivity). destruct Hlead as (r & Er).
  split; [apply first_app; rewrite Er; now apply lit_first|]. intro p.
  destruct (Hsub p) as (k & en & ts1 & K1 & _ & Hlex1 & Hparse1).
  assert (Hk : k = KStartSub).
  { specialize (Hlex1 [32%N] [Tok (TParam KWhiteSpace) (p + blen u1) (p + blen u1 + 1)]).
    assert (T : tokenizes MParam p (u1 ++ [32%N]) (Tok (TParam k) p en :: ts1 ++ [Tok (TParam KWhiteSpace) (p + blen u1) (p + blen u1 + 1)])).
    { apply Hlex1; [exists 32%N, []; cbn; tauto|]. eapply (tkz _ _ [32%N] []); [reflexivity| |reflexivity|constructor]. apply next_blanks; [discriminate|intros c [<-|[]]; cbn; tauto|exact I]. }
    rewrite Er in T. cbn [app] in T. inversion T as [|m0 q0 w0 rest0 k0 l0 Hn Ht0]. match goal with H : w0 ++ rest0 = _ |- _ => rewrite H in Hn end.
    destruct (next_token_det _ _ _ _ _ _ Hn (next_open_sub (r ++ [32%N]))) as [D _]. congruence. }
  subst k. destruct (Hargs (p + blen u1)) as (ts2 & Hsp2 & Hlex2 & Hparse2).
  exists KStartSub, en, (ts1 ++ ts2). split; [intros c toks line byte; destruct toks; reflexivity|]. split.
  - intros rest L Hr HL. rewrite <- (app_assoc u1), <- (app_assoc ts1). apply Hlex1; [now apply Hpsep|]. apply Hlex2; [exact Hr|]. rewrite blen_app, Nat.add_assoc in HL. exact HL.
  - intros cx fuel1 c gz t L line byte He Hat Ht Hgz Hf Hcp. rewrite app_length in Hf.
    destruct fuel1 as [|[|fuel1]]; [lia..|].
    destruct (Hparse1 cx (S (S fuel1)) (ts2 ++ gz ++ t :: L) line byte He (at_l _ _ _ _ Hat) (after_good _ _ _ _ _ Hsp2 Hgz Ht) ltac:(lia)) as (v & nx & L' & line1 & b1 & E1 & Hin & Hv).
    rewrite value_eq in E1. cbn [val_action] in E1. change (tspan (Tok (TParam KStartSub) p en)) with (p, en) in E1.
    rewrite call_target_eq. cbn [t_kind tgt_action]. change (tspan (Tok (TParam KStartSub) p en)) with (p, en). rewrite <- app_assoc.
    destruct (sub_expr (S fuel1) cx (p, en) (mkPst (ts1 ++ ts2 ++ gz ++ t :: L) line byte)) as [[sub nx'] s'| | |] eqn:Es; cbn [pbind fst snd] in E1; try discriminate.
    injection E1 as <- -> ->. cbn [pbind fst snd]. inversion Hv as [| | | | | |? ? w Hc Hs Hws]; subst.
    exists (TSub sub), b1, nx, L', line1. split; [reflexivity|]. intros fuel2 Hf2.
    destruct (Hparse2 cx fuel2 (call_set_target (TSub sub) c) gz t L (nx :: L') CtxCall line1 b1 eq_refl (at_r _ _ _ _ Hat) Ht Hgz Hin ltac:(cbn [length]; lia)) as (vs & ps & line2 & b2 & E2 & Hvs & Hps).
    { destruct c. cbn in Hcp |- *. now rewrite Hcp. }
    exists vs, ps, line2, b2. unfold start in E2. cbn [pnext p_toks p_line p_byte fst snd after_end] in E2.
    split; [exact E2|]. intros pt op cl ln. now apply is_dyn with (u := w).
Qed.
