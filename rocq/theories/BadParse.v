(** * BadParse: the parser refuses tags with a mistake (Spec_Bad), with the stated kind of error. *)
From Coq Require Import Lia String.
From Verif Require Import Str Regex Lexer Json Ast ErrInfo Parser StrFacts RegexFacts Spec_Lexer LexerFacts CallFacts BlockFacts DocFacts Spec_Source
  SynLex SynStr SynPath SynCall SynTag SynDoc SynItem SynBlock Spec_Bad BadFacts.
Open Scope nat_scope. Open Scope list_scope.
Notation at_ := SynPath.at_.

(** ** Refusals *)
Definition refuses {A} (cx : pctx) (k : serr) (L : list token) (r : pres pst A) : Prop :=
  exists inner line byte, Forall nonblock inner /\ r = perr_n cx k [] (mkPst (inner ++ L) line byte).
Lemma perr_bind {A B} cx k notes st (f : A -> pst -> pres pst B) : pbind (perr_n cx k notes st) f = perr_n cx k notes st.
Proof. unfold perr_n. destruct (err_info _ _ _ _ _ _); reflexivity. Qed.
Lemma refuses_bind {A B} cx k L (r : pres pst A) (f : A -> pst -> pres pst B) : refuses cx k L r -> refuses cx k L (pbind r f).
Proof. intros (inner & line & byte & H & ->). exists inner, line, byte. split; [exact H|apply perr_bind]. Qed.
Lemma refuses_perr {A} cx k inner L line byte : Forall nonblock inner -> refuses cx k L (@perr A cx k (mkPst (inner ++ L) line byte)).
Proof. intro H. exists inner, line, byte. split; [exact H|reflexivity]. Qed.

(** ** Going through good arguments *)
Lemma gap_good_after ts X : starts_gap ts -> good_after X -> good_after (ts ++ X).
Proof.
  intros H HX. destruct ts as [|x ts]; [exact HX|]. cbn [app good_after]. destruct H as [E|E].
  - left. exists KWhiteSpace. split; [exact E|cbn; tauto].
  - right. split; [exact E|]. destruct X; [contradiction|]. destruct ts; discriminate.
Qed.
Definition args_go (pe : penv) (s : str) : Prop := forall p, exists ts, starts_gap ts
  /\ (forall rest L, psep rest -> tokenizes MParam (p + blen s) rest L -> tokenizes MParam p (s ++ rest) (ts ++ L))
  /\ forall cx fuel c X Y ctx line byte m, px_env cx = pe -> at_ (px_src cx) p s -> good_after X -> m < length X ->
       inside (ts ++ X) Y -> 4 * (length Y - m) <= fuel ->
       exists c' Y' fuel' line' byte', start arguments fuel cx c ctx Y line byte = start arguments fuel' cx c' ctx Y' line' byte'
         /\ inside X Y' /\ 4 * (length Y' - m) <= fuel' /\ c_close c' = c_close c.
Definition hash_go (pe : penv) (hash : list (str * expr)) (s : str) : Prop := forall p, exists ts, starts_gap ts
  /\ (forall rest L, psep rest -> tokenizes MParam (p + blen s) rest L -> tokenizes MParam p (s ++ rest) (ts ++ L))
  /\ forall f cx fuel c X Y ctx line byte m, In f [arguments; kv_loop] -> px_env cx = pe -> at_ (px_src cx) p s -> good_after X -> m < length X ->
       inside (ts ++ X) Y -> 4 * (length Y - m) <= fuel ->
       exists f' c' Y' fuel' line' byte', start f fuel cx c ctx Y line byte = start f' fuel' cx c' ctx Y' line' byte'
         /\ (f' = f \/ f' = kv_loop) /\ (hash = [] -> f' = f) /\ (hash <> [] -> f' = kv_loop) /\ inside X Y' /\ 4 * (length Y' - m) <= fuel' /\ c_close c' = c_close c.
(** tokens made in parameter mode and in strings are not document tokens *)
Lemma string_nonblock cx ty ts : forall a b nl dl line byte r line' byte',
  string_go cx ty a b nl dl ts line byte = POk r (mkPst [] line' byte') -> Forall nonblock ts.
Proof.
  induction ts as [|t ts IH]; intros a b nl dl line byte r line' byte' H; [constructor|].
  rewrite string_go_eq in H. destruct (lit_token ty (t_kind t)) as [q|] eqn:E; [|unfold perr, perr_n in H; destruct (err_info _ _ _ _ _ _); discriminate H].
  constructor; [unfold nonblock; destruct (t_kind t); [destruct ty; discriminate E|exact I..]|].
  destruct q; try (eapply IH; exact H); try (unfold perr, perr_n in H; destruct (err_info _ _ _ _ _ _); discriminate H).
  injection H as _ -> _ _. constructor.
Qed.

Lemma args_go_nil pe : args_go pe [].
Proof.
  intro p. exists []. split; [exact I|]. split; [intros rest L _ HL; cbn in *; now rewrite Nat.add_0_r in HL|].
  intros cx fuel c X Y ctx line byte m _ _ _ _ HY Hf. exists c, Y, fuel, line, byte. repeat split; assumption.
Qed.
Lemma args_go_cons ly pe e g u r : between ly g -> expr_ok pe e -> expr_writes ly e u -> expr_good ly pe e u ->
  (forall rest, psep rest -> psep (r ++ rest)) -> args_go pe r -> args_go pe (g ++ u ++ r).
Proof.
  intros Hg He Hu Hge Hwr IH p. apply between_gap in Hg. destruct Hg as [G1 G2].
  destruct (gap_lex (length g) g (le_n _) G1 p) as (tg & T1 & T2 & _ & _ & T5).
  set (p2 := p + blen g).
  destruct (Hge p2) as (kk & en & ts1 & Hact & Hng & Hlex1 & Hparse1).
  destruct (IH (p2 + blen u)) as (ts2 & Hsp2 & Hlex2 & Hparse2).
  set (kt := Tok (TParam kk) p2 en) in *.
  exists (tg ++ (kt :: ts1) ++ ts2).
  split; [destruct tg as [|x tg]; [exfalso; now apply G2, T2|now inversion T1]|]. split.
  - intros rest L Hr HL. rewrite <- !app_assoc.
    apply T5; [apply arg_noblank; eapply expr_first; eassumption|]. fold p2.
    cbn [app]. apply Hlex1; [now apply Hwr|]. apply Hlex2; [exact Hr|].
    rewrite !blen_app in HL. subst p2. rewrite Nat.add_assoc, Nat.add_assoc in HL. exact HL.
  - intros cx fuel c X Y ctx line byte m Henv Hat HX Hm (pre & EY & Hpre) Hfu.
    rewrite <- app_assoc in EY. cbn [app] in EY.
    destruct (split_gap pre tg kt _ Y Hpre Hng EY) as (g2 & Etg & ->). clear EY.
    assert (Hg2 : Forall gap_tok g2) by (rewrite Etg in T1; now apply Forall_app in T1).
    rewrite app_length in Hfu. cbn [length] in Hfu. rewrite <- !app_assoc in Hfu. rewrite !app_length in Hfu.
    destruct (skip arguments (or_introl eq_refl) cx c ctx g2 Hg2 kt ((ts1 ++ ts2) ++ X) fuel line byte ltac:(lia)) as (line1 & ->).
    destruct (fuel - length g2) as [|fuel'] eqn:Ef; [lia|].
    apply at_r in Hat. fold p2 in Hat. pose proof (at_l _ _ _ _ Hat) as Hate. apply at_r in Hat.
    destruct (Hparse1 cx fuel' (ts2 ++ X) line1 byte Henv Hate (gap_good_after _ _ Hsp2 HX) ltac:(lia)) as (v & nx & L' & line2 & b1 & E1 & Hin & Hv).
    pose proof (inside_len _ _ Hin) as Hlen. rewrite !app_length in Hlen. cbn [length] in Hlen.
    destruct (Hparse2 cx fuel' (call_add_argument v c) X (nx :: L') ctx line2 b1 m Henv Hat HX Hm Hin ltac:(cbn [length]; lia)) as (c' & Y' & f' & l' & b' & E2 & R).
    exists c', Y', f', l', b'. split; [|destruct c; exact R].
    rewrite <- E2. rewrite arguments_eq. unfold kt. cbn [t_kind]. rewrite Hact. fold kt. rewrite <- app_assoc, E1. reflexivity.
Qed.
Lemma hash_go_nil pe : hash_go pe [] [].
Proof.
  intro p. exists []. split; [exact I|]. split; [intros rest L _ HL; cbn in *; now rewrite Nat.add_0_r in HL|].
  intros f cx fuel c X Y ctx line byte m Hf _ _ _ _ HY Hfu. exists f, c, Y, fuel, line, byte. split; [reflexivity|]. split; [now left|]. split; [reflexivity|]. split; [congruence|]. auto.
Qed.
Lemma hash_go_cons ly pe k e hash g u r : between ly g -> expr_ok pe e -> expr_writes ly e u -> expr_good ly pe e u -> key_ok k -> hash_writes ly hash r ->
  hash_go pe hash r -> hash_go pe ((k, e) :: hash) (g ++ (k ++ [61%N]) ++ u ++ r).
Proof.
  intros Hg He Hu Hge Hk Hwr IH p. apply between_gap in Hg. destruct Hg as [G1 G2].
  destruct (gap_lex (length g) g (le_n _) G1 p) as (tg & T1 & T2 & _ & _ & T5).
  set (p1 := p + blen g). set (p2 := p1 + blen (k ++ [61%N])).
  assert (E12 : p1 + blen k + 1 = p2) by (subst p2; rewrite blen_app; change (blen [61%N]) with 1; lia).
  destruct (Hge p2) as (kk & en & ts1 & Hact & _ & Hlex1 & Hparse1).
  destruct (IH (p2 + blen u)) as (ts2 & Hsp2 & Hlex2 & Hparse2).
  set (kt := Tok (TParam KHashKey) p1 p2).
  exists (tg ++ kt :: (Tok (TParam kk) p2 en :: ts1) ++ ts2).
  split; [destruct tg as [|x tg]; [exfalso; now apply G2, T2|now inversion T1]|]. split.
  - intros rest L Hr HL. rewrite <- !app_assoc. cbn [app]. rewrite <- app_assoc.
    apply T5; [apply arg_noblank, first_arg; destruct Hk; now apply idents_first|]. fold p1.
    eapply (tkz _ _ (k ++ [61%N])); [now rewrite <- app_assoc|now apply next_key|reflexivity|]. cbn [next_mode]. fold p2.
    apply Hlex1; [eapply hash_psep; eassumption|]. apply Hlex2; [exact Hr|].
    rewrite !blen_app in HL. subst p2 p1. rewrite blen_app.
    replace (p + blen g + (blen k + blen [61%N]) + blen u + blen r) with (p + (blen g + (blen k + blen [61%N] + (blen u + blen r)))) by lia. exact HL.
  - intros f cx fuel c X Y ctx line byte m Hf Henv Hat HX Hm (pre & EY & Hpre) Hfu.
    rewrite <- app_assoc in EY. cbn [app] in EY.
    assert (Hkt : ~ gap_tok kt) by (intros [E|E]; discriminate E).
    destruct (split_gap pre tg kt _ Y Hpre Hkt EY) as (g2 & Etg & ->). clear EY.
    assert (Hg2 : Forall gap_tok g2) by (rewrite Etg in T1; now apply Forall_app in T1).
    rewrite app_length in Hfu. cbn [length] in Hfu. rewrite <- !app_assoc in Hfu. rewrite !app_length in Hfu.
    destruct (skip f (skip_in f Hf) cx c ctx g2 Hg2 kt (Tok (TParam kk) p2 en :: (ts1 ++ ts2) ++ X) fuel line byte ltac:(lia)) as (line1 & ->).
    destruct (fuel - length g2) as [|[|fuel']] eqn:Ef; [lia..|].
    apply at_r in Hat. fold p1 in Hat. pose proof (at_l _ _ _ _ (at_l _ _ _ _ Hat)) as Hatk. apply at_r in Hat. fold p2 in Hat.
    pose proof (at_l _ _ _ _ Hat) as Hate. apply at_r in Hat.
    destruct (Hparse1 cx fuel' (ts2 ++ X) line1 byte Henv Hate (gap_good_after _ _ Hsp2 HX) ltac:(lia)) as (v & nx & L' & line2 & b1 & E1 & Hin & Hv).
    set (c1 := call_add_parameter k v c).
    pose proof (inside_len _ _ Hin) as Hlen. rewrite !app_length in Hlen. cbn [length] in Hlen.
    destruct (Hparse2 kv_loop cx fuel' c1 X (nx :: L') ctx line2 b1 m (or_intror (or_introl eq_refl)) Henv Hat HX Hm Hin ltac:(cbn [length]; lia))
      as (f' & c' & Y' & fu' & l' & b' & E2 & Hf' & _ & Hne & R1 & R2 & R3).
    assert (Hkv : key_value (S fuel') cx c kt ctx (mkPst (Tok (TParam kk) p2 en :: (ts1 ++ ts2) ++ X) line1 byte)
                  = start kv_loop fuel' cx c1 ctx (nx :: L') line2 b1).
    { rewrite key_value_eq. unfold kt. cbn [t_start t_end]. rewrite <- E12, Nat.add_sub. rewrite (at_slice _ _ _ Hatk). cbn [pslice app p_toks p_line p_byte t_kind].
      rewrite E12, <- app_assoc, E1. reflexivity. }
    exists kv_loop, c', Y', fu', l', b'. assert (f' = kv_loop) by (destruct Hf'; assumption). subst f'.
    split; [|split; [now right|split; [discriminate|split; [reflexivity|split; [exact R1|split; [exact R2|]]]]]].
    + rewrite <- E2, <- Hkv. cbn [In] in Hf. destruct Hf as [<-|[<-|[]]]; [rewrite arguments_eq|rewrite kv_loop_eq]; reflexivity.
    + rewrite R3. subst c1. destruct c. reflexivity.
Qed.
Lemma args_goes ly pe args s : args_write ly args s -> Forall (expr_ok pe) args -> args_go pe s.
Proof.
  induction 1 as [|e l g u r Hg Hu Hr IH]; intro H; [apply args_go_nil|]. inversion H as [|? ? H1 H2]; subst.
  eapply args_go_cons; try eassumption.
  - now apply (proj1 (all_good ly pe)).
  - intros rest Hp. eapply args_psep; eassumption.
  - now apply IH.
Qed.
Lemma hash_goes ly pe hash s : hash_writes ly hash s -> Forall (fun kv => key_ok (fst kv) /\ expr_ok pe (snd kv)) hash -> hash_go pe hash s.
Proof.
  induction 1 as [|k e l g u r Hg Hu Hr IH]; intro H; [apply hash_go_nil|]. inversion H as [|? ? [H1 H2] H3]; subst. cbn [fst snd] in H1, H2.
  eapply hash_go_cons; try eassumption.
  - now apply (proj1 (all_good ly pe)).
  - now apply IH.
Qed.

(** ** What the parser must do with a mistake *)
Definition ctx_of (f : flag) : call_ctx := if is_sub f then CtxSub else CtxCall.
Definition sub_ctx (b : bool) : call_ctx := if b then CtxSub else CtxCall.
Definition is_cond (f : flag) : bool := match f with AfterElse => true | _ => false end.
Definition fin_ok {B} (sub : bool) (cx : pctx) (fin : call * option token -> pst -> pres pst B) : Prop :=
  sub = true -> forall r st, call_is_closed (fst r) = false -> fin r st = perr cx SSubExpressionNotTerminated st.
Definition bad_parse (pl : place) (k : serr) (cx : pctx) (t : token) (ts L : list token) : Prop :=
  match pl with
  | AtTarget f => forall B fuel c F (fin : call * option token -> pst -> pres pst B) line byte,
      fin_ok (is_sub f) cx fin -> call_has_target (px_src cx) c = Some false -> c_conditional c = is_cond f -> c_close c = None ->
      4 * S (length ts) <= fuel -> (forall st, 4 * S (length ts) <= F st \/ 4 * (length (p_toks st) + 1) <= F st) ->
      refuses cx k L (pbind (call_target fuel cx c (Some t) (ctx_of f) (mkPst (ts ++ L) line byte))
                        (fun r st => pbind (arguments (F st) cx (fst r) (snd r) (ctx_of f) st) fin))
  | AtArg sub => forall B fuel c (fin : call * option token -> pst -> pres pst B) line byte,
      fin_ok sub cx fin -> c_close c = None -> 4 * S (length ts) <= fuel ->
      refuses cx k L (pbind (arguments fuel cx c (Some t) (sub_ctx sub) (mkPst (ts ++ L) line byte)) fin)
  | AtHash sub => forall fuel c line byte, 4 * S (length ts) <= fuel ->
      refuses cx k L (kv_loop fuel cx c (Some t) (sub_ctx sub) (mkPst (ts ++ L) line byte))
  | AtValue => forall fuel line byte, 4 * S (length ts) <= fuel ->
      exists kk, t_kind t = TParam kk /\ refuses cx k L (value_ fuel cx kk t (mkPst (ts ++ L) line byte))
  end.
Definition bad_good (pe : penv) (pl : place) (k : serr) (s : str) : Prop :=
  (pl <> AtValue -> arg_first s) /\ forall p rest, nobrace rest -> exists t ts,
    (forall L, tokenizes MBlock (p + blen s) rest L -> tokenizes MParam p (s ++ rest) (t :: ts ++ L))
    /\ (pl <> AtValue -> ~ gap_tok t)
    /\ (joins s -> stop_tok t)
    /\ (pl = AtTarget Plain -> exists kk, t_kind t = TParam kk /\ ~ In kk [KPartial; KElse; KWhiteSpace; KNewline])
    /\ forall cx L, px_env cx = pe -> at_ (px_src cx) p s -> bad_parse pl k cx t ts L.

(** *** A word that cannot stand here *)
Definition join_chars : list chr := [125; 126; 41; 62]%N ++ stray_chars.
Lemma ident_nojoin c : is_ident c = true -> ~ In c join_chars.
Proof. intros H Hin. unfold join_chars, stray_chars in Hin. cbn in Hin. repeat (destruct Hin as [<-|Hin]; [vm_compute in H; discriminate|]). contradiction. Qed.
Lemma lit_nojoin c s : forallb (fun x => negb (N.eqb x c)) join_chars = true -> ~ joins (c :: s).
Proof.
  intros H (d & r & [= <- <-] & Hin). rewrite forallb_forall in H. fold join_chars in Hin. specialize (H _ Hin). now rewrite N.eqb_refl in H.
Qed.
Lemma idents_nojoin w s : w <> [] -> forallb ident_char w = true -> ~ joins (w ++ s).
Proof.
  rewrite ident_chars. intros Hw H. destruct w as [|c w]; [congruence|]. intros (d & r & [= <- <-] & Hin). cbn in H. apply andb_true_iff in H. now apply (ident_nojoin c).
Qed.
Lemma word_joins wk w s : word wk w -> joins (w ++ s) -> In wk [WGt; WClose; WStray].
Proof.
  intros H Hj. destruct H as [w (H1 & H2 & _)|w H| | | | | | |w H|w [H1 H2]| | | | |c H]; try (cbn; tauto); exfalso; revert Hj;
    try (apply lit_nojoin; reflexivity).
  - apply idents_nojoin; [destruct w; [contradiction|discriminate]|exact H2].
  - destruct (number_first w H) as (c & w' & -> & Hc). apply lit_nojoin. cbn in Hc. repeat (destruct Hc as [<-|Hc]; [reflexivity|]). contradiction.
  - rewrite <- app_assoc. now apply idents_nojoin.
Qed.
Lemma word_first wk w : word wk w -> arg_first w.
Proof.
  assert (L : forall c r, (c =? 9)%N = false -> (c =? 32)%N = false -> arg_first (c :: r)).
  { intros c r H1 H2. exists c, r. split; [reflexivity|]. apply N.eqb_neq in H1, H2. auto. }
  intros [w' H|w' H| | | | | | |w' H|w' [H1 H2]| | | | |c H]; try (apply L; reflexivity).
  - apply first_arg. now apply name_first_ok.
  - destruct (number_first w' H) as (c & w0 & -> & Hc). cbn in Hc. apply L; (repeat (destruct Hc as [<-|Hc]; [reflexivity|]); contradiction).
  - apply first_arg, first_app. now apply idents_first.
  - unfold stray_chars in H. cbn in H. apply L; (repeat (destruct H as [<-|H]; [reflexivity|]); contradiction).
Qed.
Lemma arg_first_app s u : arg_first s -> arg_first (s ++ u).
Proof. intros (c & r & -> & H). exists c, (r ++ u). auto. Qed.
Lemma refuses_else {B} cx (fin : call * option token -> pst -> pres pst B) inner c L line byte : fin_ok true cx fin -> Forall nonblock inner -> c_close c = None ->
  refuses cx SSubExpressionNotTerminated L (fin (c, None) (mkPst (inner ++ L) line byte)).
Proof. intros H Hi Hc. rewrite (H eq_refl); [now apply refuses_perr|]. unfold call_is_closed. cbn [fst]. now rewrite Hc. Qed.
Ltac refuse := first [apply refuses_perr; assumption | apply refuses_bind; apply refuses_perr; assumption].
Lemma bad_word_good pe pl wk w s k : word wk w -> mistake pl wk = Some k -> followed wk s -> tag_rest s -> bad_good pe pl k (w ++ s).
Proof.
  intros Hw Hm Hf Hs. split; [intros _; apply arg_first_app; eapply word_first, Hw|]. intros p rest Hr.
  destruct (word_lex wk w s rest Hw Hf) as (kk & Hk & Hnext).
  destruct (tag_rest_lex s (p + blen w) rest Hs Hr) as (ts & _ & T2 & T3).
  exists (Tok (TParam kk) p (p + blen w)), ts. split; [|split; [|split; [|split]]].
  - intros L HL. eapply (tkz _ _ w); [now rewrite <- app_assoc|exact Hnext|reflexivity|]. rewrite (word_mode wk kk Hk). apply T3.
    rewrite blen_app, Nat.add_assoc in HL. exact HL.
  - intros _ [E|E]; cbn in E; injection E as ->; destruct wk; cbn in Hk; intuition discriminate.
  - intro Hj. apply (word_joins wk w s Hw) in Hj. exists kk. split; [reflexivity|]. cbn in Hj.
    destruct Hj as [<-|[<-|[<-|[]]]]; cbn in Hk; destruct Hk as [<-|[]]; cbn; tauto.
  - intros ->. exists kk. split; [reflexivity|]. intro Hin. cbn in Hin. destruct wk; cbn in Hm; try discriminate Hm; cbn in Hk; intuition (subst; discriminate).
  - intros cx L _ _. destruct pl as [f|sub|sub|]; cbn [bad_parse].
    + intros B fuel c F fin line byte _ _ _ _ Hfu _. destruct fuel as [|fuel]; [lia|]. rewrite call_target_eq. cbn [t_kind].
      destruct f, wk; cbn in Hm; try discriminate Hm; injection Hm as <-; cbn [word_tok In] in Hk;
        repeat (destruct Hk as [<-|Hk]; [cbn [tgt_action ctx_of is_sub]; refuse|]); contradiction.
    + intros B fuel c fin line byte Hfin Hc Hfu. destruct fuel as [|fuel]; [lia|]. rewrite arguments_eq. cbn [t_kind].
      destruct sub, wk; cbn in Hm; try discriminate Hm; injection Hm as <-; cbn [word_tok In] in Hk;
        repeat (destruct Hk as [<-|Hk]; [cbn [arg_action sub_ctx]; first [refuse|cbn [pbind]; now apply refuses_else]|]); contradiction.
    + intros fuel c line byte Hfu. destruct fuel as [|fuel]; [lia|]. rewrite kv_loop_eq. cbn [t_kind].
      destruct sub, wk; cbn in Hm; try discriminate Hm; injection Hm as <-; cbn [word_tok In] in Hk;
        repeat (destruct Hk as [<-|Hk]; [cbn [kv_action sub_ctx]; refuse|]); contradiction.
    + intros fuel line byte Hfu. destruct fuel as [|fuel]; [lia|]. exists kk. split; [reflexivity|]. rewrite value_eq.
      destruct wk; cbn in Hm; try discriminate Hm; injection Hm as <-; cbn [word_tok In] in Hk;
        repeat (destruct Hk as [<-|Hk]; [cbn [val_action]; refuse|]); contradiction.
Qed.
