(** * SynStr: lexing and parsing of printed string literals and bracketed path segments (Spec_Source). *)
From Coq Require Import Lia String.
From Verif Require Import Str Regex Lexer Json Ast ErrInfo Parser StrFacts RegexFacts Spec_Lexer LexerFacts Spec_Source SynLex.
Open Scope nat_scope. Open Scope list_scope.

Definition sitems_text (q : chr) (l : list sitem) : str := flat_map (sitem_text q) l.
Definition has_newline (l : list sitem) : bool := existsb (fun x => match x with SNewline => true | _ => false end) l.
Definition has_quote (l : list sitem) : bool := existsb (fun x => match x with SQuote => true | _ => false end) l.

(** ** Decoding *)
Definition step1 (q : chr) (x : sitem) : str := match x with SNewline => [10%N] | _ => sitem_text q x end.
Lemma step1_id q l : has_newline l = false -> flat_map (step1 q) l = sitems_text q l.
Proof.
  induction l as [|x l IH]; [reflexivity|]. intro H. cbn in *. apply orb_false_iff in H. destruct H as [H1 H2].
  rewrite IH by assumption. destruct x; [reflexivity|discriminate|reflexivity].
Qed.
Lemma replace2_cons a b r x s : x <> a -> replace2 a b r (x :: s) = x :: replace2 a b r s.
Proof. intro H. destruct s; [reflexivity|]. cbn. apply N.eqb_neq in H. now rewrite H. Qed.
Lemma replace2_cons2 a b r x y s : y <> b -> replace2 a b r (x :: y :: s) = x :: replace2 a b r (y :: s).
Proof. intro H. cbn [replace2]. apply N.eqb_neq in H. now rewrite H, andb_false_r. Qed.
Lemma replace2_hit a b r s : replace2 a b r (a :: b :: s) = r :: replace2 a b r s.
Proof. cbn. now rewrite !N.eqb_refl. Qed.

Lemma decode1 q l : q <> 92%N -> q <> 110%N -> q <> 10%N -> sitems_ok q l ->
  replace2 92%N 110%N 10%N (sitems_text q l) = flat_map (step1 q) l.
Proof.
  intros Hq1 Hq2 Hq3. induction l as [|x l IH]; [reflexivity|]. intro H.
  destruct x as [c| |].
  - destruct H as (Hc & Hc2 & Hn & Hl). cbn [sitems_text flat_map sitem_text step1 app].
    fold (sitems_text q l). destruct (N.eq_dec c 92%N) as [->|Hc3].
    + specialize (Hn eq_refl). destruct l as [|y l]; [contradiction|].
      destruct y as [d| |]; cbn [sitems_text flat_map sitem_text app] in *; rewrite replace2_cons2;
        [f_equal; apply IH; assumption|assumption|f_equal; apply IH; assumption|discriminate|f_equal; apply IH; assumption|discriminate].
    + rewrite replace2_cons by assumption. f_equal. now apply IH.
  - destruct H as (_ & Hl). cbn [sitems_text flat_map sitem_text step1 app]. rewrite replace2_hit. f_equal. now apply IH.
  - destruct H as (_ & Hl). cbn [sitems_text flat_map sitem_text step1 app].
    rewrite replace2_cons2 by assumption. rewrite replace2_cons by assumption. do 2 f_equal. now apply IH.
Qed.
Lemma decode2 q l : q <> 92%N -> q <> 110%N -> q <> 10%N -> sitems_ok q l ->
  replace2 92%N q q (flat_map (step1 q) l) = map (sitem_value q) l.
Proof.
  intros Hq1 Hq2 Hq3. induction l as [|x l IH]; [reflexivity|]. intro H.
  destruct x as [c| |].
  - destruct H as (Hc & Hc2 & Hn & Hl). cbn [flat_map sitem_text step1 app map sitem_value].
    destruct (N.eq_dec c 92%N) as [->|Hc3].
    + specialize (Hn eq_refl). destruct l as [|y l]; [contradiction|].
      destruct y as [d| |]; cbn [flat_map sitem_text step1 app] in *.
      * rewrite replace2_cons2; [f_equal; apply IH; assumption|]. destruct Hl as [Hl _]. exact Hl.
      * rewrite replace2_cons2; [f_equal; apply IH; assumption|]. congruence.
      * rewrite replace2_cons2; [f_equal; apply IH; assumption|]. congruence.
    + rewrite replace2_cons by assumption. f_equal. now apply IH.
  - destruct H as (_ & Hl). cbn [flat_map sitem_text step1 app map sitem_value].
    rewrite replace2_cons by discriminate. f_equal. now apply IH.
  - destruct H as (_ & Hl). cbn [flat_map sitem_text step1 app map sitem_value]. rewrite replace2_hit. f_equal. now apply IH.
Qed.
Lemma values_id q l : has_quote l = false -> flat_map (step1 q) l = map (sitem_value q) l.
Proof.
  induction l as [|x l IH]; [reflexivity|]. intro H. cbn in *. apply orb_false_iff in H. destruct H as [H1 H2].
  rewrite IH by assumption. destruct x; [reflexivity|reflexivity|discriminate].
Qed.
Lemma raw_owned_items q l ty : q = delim_of ty -> q <> 92%N -> q <> 110%N -> q <> 10%N -> sitems_ok q l ->
  raw_owned (mkRaw (has_newline l) (has_quote l) ty) (sitems_text q l) = map (sitem_value q) l.
Proof.
  intros -> Hq1 Hq2 Hq3 Hl. unfold raw_owned. cbn [rl_newline rl_delim rl_type].
  assert (E : (if has_newline l then replace2 92%N 110%N 10%N (sitems_text (delim_of ty) l) else sitems_text (delim_of ty) l) = flat_map (step1 (delim_of ty)) l).
  { destruct (has_newline l) eqn:E; [now apply decode1|now rewrite step1_id]. }
  rewrite E. destruct (has_quote l) eqn:E2; [now apply decode2|now apply values_id].
Qed.

(** ** Lexing *)
Definition qlit (single : bool) : lit_type := if single then LSingle else LDouble.
Lemma quote_facts sg : quote_of sg = delim_of (qlit sg) /\ quote_of sg <> 92%N /\ quote_of sg <> 110%N /\ quote_of sg <> 10%N.
Proof. destruct sg; cbn; repeat split; discriminate. Qed.

(** a maximal run of plain characters *)
Definition is_plain_item (x : sitem) : bool := match x with SChar c => negb (c =? 92)%N | _ => false end.
Fixpoint run_of (l : list sitem) : str * list sitem :=
  match l with
  | SChar c :: l' => if (c =? 92)%N then ([], l) else let (r, k) := run_of l' in (c :: r, k)
  | _ => ([], l)
  end.
Lemma run_spec q l r k : sitems_ok q l -> run_of l = (r, k) ->
  l = map SChar r ++ k /\ sitems_ok q k /\ (forall c, In c r -> c <> 92%N /\ c <> q /\ c <> 10%N)
  /\ match k with SChar c :: _ => c = 92%N | _ => True end.
Proof.
  revert r k. induction l as [|x l IH]; intros r k Hl H.
  - injection H as <- <-. repeat split; try exact I; intros; contradiction.
  - destruct x as [c| |]; cbn [run_of] in H.
    + destruct (N.eqb_spec c 92%N) as [->|Hc].
      * injection H as <- <-. split; [reflexivity|]. split; [assumption|]. split; [intros ? []|reflexivity].
      * destruct (run_of l) as [r' k'] eqn:E. injection H as <- <-. destruct Hl as (H1 & H2 & H3 & H4).
        destruct (IH _ _ H4 eq_refl) as (-> & Hk & Hr & Hh). split; [reflexivity|]. split; [assumption|]. split; [|assumption].
        intros d [<-|Hd]; [repeat split; assumption|auto].
    + injection H as <- <-. split; [reflexivity|]. split; [assumption|]. split; [intros ? []|exact I].
    + injection H as <- <-. split; [reflexivity|]. split; [assumption|]. split; [intros ? []|exact I].
Qed.
Lemma sitems_text_app q a b : sitems_text q (a ++ b) = sitems_text q a ++ sitems_text q b.
Proof. unfold sitems_text. now rewrite flat_map_app. Qed.
Lemma sitems_text_chars q r : sitems_text q (map SChar r) = r.
Proof. induction r as [|c r IH]; [reflexivity|]. cbn. unfold sitems_text in IH. now rewrite IH. Qed.

Lemma next_qtext_nl sg r rest : r <> [] -> (forall c, In c r -> c <> 92%N /\ c <> quote_of sg /\ c <> 10%N) ->
  match rest with [] => True | d :: _ => d = 92%N \/ d = quote_of sg \/ d = 10%N end ->
  next_token (qmode sg) (r ++ rest) (qtok sg QText) (length r).
Proof.
  intros Hr Hc Hrest.
  assert (Hcl : forallb (fun c => negb (class [92; quote_of sg; 10]%N c)) r = true).
  { apply forallb_forall. intros c Hin. destruct (Hc c Hin) as (H1 & H2 & H3). apply negb_true_iff. unfold class. cbn.
    apply N.eqb_neq in H1, H2, H3. now rewrite H1, H2, H3. }
  destruct r as [|c r]; [congruence|]. destruct (Hc c (or_introl eq_refl)) as (Hc1 & Hc2 & Hc3).
  eapply (next_intro (qmode sg) [] (RPlus (RChr (fun c => negb (class [92; quote_of sg; 10]%N c)))) (qtok sg QText)
            (tag (qtok sg) (tl (pats_quote (quote_of sg))))).
  - destruct sg; reflexivity.
  - discriminate.
  - apply lang_plus_chr. split; [discriminate|assumption].
  - intros ? ? ? [].
  - intros r' k' n' [[= <- <-]|Hin] Hm.
    + destruct rest as [|d rest].
      * rewrite app_nil_r in Hm. destruct Hm as [[_ H] _]. exact H.
      * eapply chars_bound; [|exact Hm]. cbn -[N.eqb]. destruct Hrest as [->|[->| ->]].
        -- now rewrite N.eqb_refl.
        -- rewrite N.eqb_refl. cbn. now rewrite orb_true_r.
        -- now rewrite !orb_true_r.
    + exfalso. apply in_tag in Hin. destruct Hin as (a & -> & Hin). apply N.eqb_neq in Hc1, Hc2, Hc3.
      rewrite N.eqb_sym in Hc1, Hc2, Hc3.
      cbn [tl pats_quote In] in Hin.
      repeat (destruct Hin as [Hin|Hin]; [injection Hin as <- <-; eapply first_bound; [|exact Hm]; cbn -[N.eqb]; now rewrite ?Hc1, ?Hc2, ?Hc3|]).
      contradiction.
Qed.
Lemma next_qtext sg r rest : r <> [] -> (forall c, In c r -> c <> 92%N /\ c <> quote_of sg /\ c <> 10%N) ->
  match rest with [] => True | d :: _ => d = 92%N \/ d = quote_of sg end ->
  next_token (qmode sg) (r ++ rest) (qtok sg QText) (length r).
Proof. intros H1 H2 H3. apply next_qtext_nl; [exact H1|exact H2|]. destruct rest; [exact I|]. destruct H3 as [H3|H3]; auto. Qed.
Lemma next_qnewline sg rest : next_token (qmode sg) ([10%N] ++ rest) (qtok sg QNewline) 1.
Proof. destruct sg; [apply (next_concrete MSingle [10%N])|apply (next_concrete MDouble [10%N])]; try discriminate; try reflexivity; destruct rest; reflexivity. Qed.
Lemma next_qerror sg d rest : d <> 110%N -> d <> quote_of sg -> next_token (qmode sg) (92%N :: d :: rest) (qtok sg QError) 1.
Proof.
  intros H1 H2. right. split; [|repeat split; [destruct sg; reflexivity|discriminate]].
  intros r' k' n' Hin Hm. destruct Hm as [[Hn1 Hn2] Hl]. destruct n' as [|n']; [lia|]. cbn [firstn] in Hl.
  apply N.eqb_neq in H1, H2. rewrite N.eqb_sym in H1, H2.
  assert (Hp : pats (qmode sg) = tag (qtok sg) (pats_quote (quote_of sg))) by (destruct sg; reflexivity).
  rewrite Hp in Hin. apply in_tag in Hin. destruct Hin as (a & -> & Hin). cbn [pats_quote In] in Hin.
  assert (Hq : (quote_of sg =? 92)%N = false) by (destruct sg; reflexivity).
  repeat (destruct Hin as [Hin|Hin]; [injection Hin as <- <-|]); try contradiction.
  - eapply re_first_spec in Hl; [|reflexivity]. cbn in Hl. discriminate.
  - destruct n' as [|n'].
    + cbn [firstn] in Hl. apply lang_lit in Hl. discriminate.
    + cbn [firstn] in Hl. apply lang_lit in Hl. unfold lit in Hl. cbn in Hl. injection Hl as Hl _. subst d. discriminate.
  - destruct n' as [|n'].
    + cbn [firstn] in Hl. apply (lang_lit [92%N; quote_of sg]) in Hl. discriminate.
    + cbn [firstn] in Hl. apply (lang_lit [92%N; quote_of sg]) in Hl. injection Hl as Hl _. subst d. rewrite N.eqb_refl in H2. discriminate.
  - eapply re_first_spec in Hl; [|reflexivity]. cbn -[N.eqb] in Hl. congruence.
  - eapply re_first_spec in Hl; [|reflexivity]. cbn in Hl. discriminate.
Qed.
Lemma next_qescape_nl sg rest : next_token (qmode sg) ([92; 110]%N ++ rest) (qtok sg QEscapedNewline) 2.
Proof.
  apply (next_concrete (qmode sg) [92; 110]%N); [discriminate|destruct sg; reflexivity|].
  destruct rest; destruct sg; reflexivity.
Qed.
Lemma next_qescape sg rest : next_token (qmode sg) ([92%N; quote_of sg] ++ rest) (qtok sg QEscaped) 2.
Proof.
  apply (next_concrete (qmode sg) [92%N; quote_of sg]); [discriminate|destruct sg; reflexivity|].
  destruct rest; destruct sg; reflexivity.
Qed.
Lemma next_qend sg rest : next_token (qmode sg) ([quote_of sg] ++ rest) (qtok sg QEnd) 1.
Proof.
  apply (next_concrete (qmode sg) [quote_of sg]); [discriminate|destruct sg; reflexivity|].
  destruct rest; destruct sg; reflexivity.
Qed.

Lemma qtok_lit sg q : lit_token (qlit sg) (qtok sg q) = Some q.
Proof. destruct sg; reflexivity. Qed.
Lemma qtok_mode sg q : next_mode (qtok sg q) = match q with QEnd => MParam | _ => qmode sg end.
Proof. destruct sg, q; reflexivity. Qed.

Lemma string_go_eq cx ty start stop nl dl t ts line byte :
  string_go cx ty start stop nl dl (t :: ts) line byte =
  match lit_token ty (t_kind t) with
  | None => perr cx (lit_err ty) (mkPst ts line byte)
  | Some QNewline => perr cx SLiteralNewline (mkPst ts line byte)
  | Some QEscapedNewline => string_go cx ty start stop true dl ts line byte
  | Some QEscaped => string_go cx ty start stop nl true ts line byte
  | Some QEnd => POk ((start, stop), mkRaw nl dl ty) (mkPst ts line byte)
  | Some QText | Some QError => string_go cx ty start (t_end t) nl dl ts line (t_end t - 1)
  end.
Proof. reflexivity. Qed.

(** a literal body: its tokens, and what [string_go] makes of them *)
Lemma quote_body sg n : forall l p, length l <= n -> sitems_ok (quote_of sg) l ->
  exists ts, (forall rest L, tokenizes MParam (p + blen (sitems_text (quote_of sg) l) + 1) rest L ->
                tokenizes (qmode sg) p (sitems_text (quote_of sg) l ++ [quote_of sg] ++ rest) (ts ++ L))
    /\ (forall cx start stop nl dl L line byte, exists byte',
          string_go cx (qlit sg) start stop nl dl (ts ++ L) line byte =
          POk ((start, match l with [] => stop | _ => p + blen (sitems_text (quote_of sg) l) end),
               mkRaw (nl || has_newline l) (dl || has_quote l) (qlit sg)) (mkPst L line byte'))
    /\ 1 <= length ts.
Proof.
  assert (Hq1 : clen (quote_of sg) = 1) by (destruct sg; reflexivity).
  induction n as [|n IH]; intros l p Hn Hl.
  - destruct l; [|cbn in Hn; lia]. exists [Tok (qtok sg QEnd) p (p + 1)]. split; [|split; [|cbn; lia]].
    + intros rest L HL. cbn [sitems_text flat_map app blen] in *.
      replace (p + 1) with (p + blen [quote_of sg]) at 1 by (cbn [blen]; lia).
      apply (tkz_cons _ _ [quote_of sg] rest); [apply next_qend|]. rewrite qtok_mode.
      replace (p + blen [quote_of sg]) with (p + 0 + 1) by (cbn [blen]; lia). exact HL.
    + intros. exists byte. cbn [app]. rewrite string_go_eq. cbn [t_kind]. rewrite qtok_lit. cbn. now rewrite !orb_false_r.
  - destruct l as [|x l0]; [apply (IH [] p); [cbn; lia|exact I]|].
    destruct x as [c| |].
    + destruct (N.eq_dec c 92%N) as [->|Hc].
      * (* a backslash character *)
        destruct Hl as (_ & _ & Hnx & Hl0). specialize (Hnx eq_refl).
        assert (Hlen : length l0 <= n) by (cbn in Hn; lia).
        destruct (IH l0 (p + 1) Hlen Hl0) as (ts & Ht & Hg & _).
        exists (Tok (qtok sg QError) p (p + 1) :: ts). split; [|split; [|cbn; lia]].
        -- intros rest L HL. cbn [sitems_text flat_map sitem_text app]. fold (sitems_text (quote_of sg) l0).
           change (p + 1) with (p + blen [92%N]) at 1.
           apply (tkz_cons _ _ [92%N] (sitems_text (quote_of sg) l0 ++ quote_of sg :: rest)).
           ++ destruct l0 as [|y l1]; [contradiction|]. destruct y as [d| |]; cbn [sitems_text flat_map sitem_text app].
              ** apply next_qerror; [exact Hnx|]. destruct Hl0 as [Hd _]. exact Hd.
              ** apply next_qerror; destruct sg; discriminate.
              ** apply next_qerror; destruct sg; discriminate.
           ++ rewrite qtok_mode. apply Ht.
              replace (p + 1 + blen (sitems_text (quote_of sg) l0) + 1) with (p + blen (sitems_text (quote_of sg) (SChar 92%N :: l0)) + 1); [exact HL|].
              cbn [sitems_text flat_map sitem_text app blen]. fold (sitems_text (quote_of sg) l0). change (clen 92%N) with 1. lia.
        -- intros. cbn [app]. rewrite string_go_eq. cbn [t_kind t_end]. rewrite qtok_lit.
           destruct (Hg cx start (p + 1) nl dl L line (p + 1 - 1)) as (b' & Hb). exists b'. rewrite Hb.
           destruct l0 as [|y l1]; [contradiction|]. cbn [has_newline has_quote existsb orb].
           do 2 f_equal. f_equal. cbn [sitems_text flat_map sitem_text app blen]. change (clen 92%N) with 1. lia.
      * (* a run of plain characters *)
        destruct (run_of (SChar c :: l0)) as [r k] eqn:E.
        destruct (run_spec _ _ _ _ Hl E) as (El & Hk & Hr & Hh).
        assert (Hrn : r <> []).
        { cbn [run_of] in E. apply N.eqb_neq in Hc. rewrite Hc in E. destruct (run_of l0); injection E as <- <-. discriminate. }
        assert (Hlen : length k <= n).
        { assert (Z := f_equal (@length _) El). rewrite app_length, map_length in Z. cbn in Z, Hn.
          destruct r; [congruence|]. cbn in Z. lia. }
        rewrite El.
        destruct (IH k (p + blen r) Hlen Hk) as (ts & Ht & Hg & _).
        assert (Etext : sitems_text (quote_of sg) (map SChar r ++ k) = r ++ sitems_text (quote_of sg) k)
          by (rewrite sitems_text_app, sitems_text_chars; reflexivity).
        exists (Tok (qtok sg QText) p (p + blen r) :: ts). split; [|split; [|cbn; lia]].
        -- intros rest L HL. rewrite Etext in *. rewrite blen_app in HL. rewrite <- app_assoc.
           apply tkz_cons.
           ++ apply next_qtext; [assumption|assumption|].
              destruct k as [|y k']; [cbn; now right|]. destruct y as [d| |]; cbn; [left; exact Hh|now left|now left].
           ++ rewrite qtok_mode. apply Ht. replace (p + blen r + blen (sitems_text (quote_of sg) k) + 1) with (p + (blen r + blen (sitems_text (quote_of sg) k)) + 1) by lia. exact HL.
        -- intros. cbn [app]. rewrite string_go_eq. cbn [t_kind t_end]. rewrite qtok_lit.
           destruct (Hg cx start (p + blen r) nl dl L line (p + blen r - 1)) as (b' & Hb). exists b'. rewrite Hb.
           rewrite Etext, blen_app.
           assert (F1 : has_newline (map SChar r ++ k) = has_newline k).
           { unfold has_newline. rewrite existsb_app. clear. induction r; [reflexivity|]. assumption. }
           assert (F2 : has_quote (map SChar r ++ k) = has_quote k).
           { unfold has_quote. rewrite existsb_app. clear. induction r; [reflexivity|]. assumption. }
           rewrite F1, F2. do 2 f_equal. f_equal.
           destruct r as [|z r]; [congruence|]. cbn [map app].
           destruct k as [|y k']; [cbn [sitems_text flat_map blen]; lia|lia].
    + (* escaped newline *)
      destruct Hl as (Hne & Hl0). assert (Hlen : length l0 <= n) by (cbn in Hn; lia).
      destruct (IH l0 (p + 2) Hlen Hl0) as (ts & Ht & Hg & _).
      exists (Tok (qtok sg QEscapedNewline) p (p + 2) :: ts). split; [|split; [|cbn; lia]].
      * intros rest L HL. cbn [sitems_text flat_map sitem_text app]. fold (sitems_text (quote_of sg) l0).
        change (p + 2) with (p + blen [92; 110]%N) at 1.
        apply (tkz_cons _ _ [92; 110]%N (sitems_text (quote_of sg) l0 ++ quote_of sg :: rest)).
        -- apply next_qescape_nl.
        -- rewrite qtok_mode. apply Ht.
           replace (p + 2 + blen (sitems_text (quote_of sg) l0) + 1) with (p + blen (sitems_text (quote_of sg) (SNewline :: l0)) + 1); [exact HL|].
           cbn [sitems_text flat_map sitem_text app blen]. fold (sitems_text (quote_of sg) l0). change (clen 92%N) with 1. change (clen 110%N) with 1. lia.
      * intros. cbn [app]. rewrite string_go_eq. cbn [t_kind t_end]. rewrite qtok_lit.
        destruct (Hg cx start stop true dl L line byte) as (b' & Hb). exists b'. rewrite Hb.
        destruct l0 as [|y l1]; [congruence|]. cbn [has_newline has_quote existsb orb].
        rewrite orb_true_r. do 2 f_equal. f_equal. cbn [sitems_text flat_map sitem_text app blen]. change (clen 92%N) with 1. change (clen 110%N) with 1. lia.
    + (* escaped quote *)
      destruct Hl as (Hne & Hl0). assert (Hlen : length l0 <= n) by (cbn in Hn; lia).
      destruct (IH l0 (p + 2) Hlen Hl0) as (ts & Ht & Hg & _).
      exists (Tok (qtok sg QEscaped) p (p + 2) :: ts). split; [|split; [|cbn; lia]].
      * intros rest L HL. cbn [sitems_text flat_map sitem_text app]. fold (sitems_text (quote_of sg) l0).
        replace (p + 2) with (p + blen [92%N; quote_of sg]) at 1 by (cbn [blen]; change (clen 92%N) with 1; lia).
        apply (tkz_cons _ _ [92%N; quote_of sg] (sitems_text (quote_of sg) l0 ++ quote_of sg :: rest)).
        -- apply next_qescape.
        -- rewrite qtok_mode. 
           replace (p + blen [92%N; quote_of sg]) with (p + 2) by (cbn [blen]; change (clen 92%N) with 1; lia). apply Ht.
           replace (p + 2 + blen (sitems_text (quote_of sg) l0) + 1) with (p + blen (sitems_text (quote_of sg) (SQuote :: l0)) + 1); [exact HL|].
           cbn [sitems_text flat_map sitem_text app blen]. fold (sitems_text (quote_of sg) l0). change (clen 92%N) with 1. lia.
      * intros. cbn [app]. rewrite string_go_eq. cbn [t_kind t_end]. rewrite qtok_lit.
        destruct (Hg cx start stop nl true L line byte) as (b' & Hb). exists b'. rewrite Hb.
        destruct l0 as [|y l1]; [congruence|]. cbn [has_newline has_quote existsb orb].
        rewrite orb_true_r. do 2 f_equal. f_equal. cbn [sitems_text flat_map sitem_text app blen]. change (clen 92%N) with 1. lia.
Qed.
