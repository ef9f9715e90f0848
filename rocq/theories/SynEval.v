(** * SynEval: a path at the end of the input (Render::evaluate, C72). *)
From Coq Require Import Lia String.
From Verif Require Import Str Regex Lexer Json Ast ErrInfo Parser StrFacts RegexFacts Spec_Lexer LexerFacts ParserFacts CallFacts Spec_Source SynLex SynStr SynPath.
Open Scope nat_scope. Open Scope list_scope.

(** ** A token stream can be cut after any token *)
Lemma next_cut m u rest k n : n <= length u -> next_token m (u ++ rest) k n -> next_token m u k n.
Proof.
  intros Hu. assert (Hf : forall j, j <= length u -> firstn j (u ++ rest) = firstn j u).
  { intros j Hj. rewrite firstn_app. replace (j - length u) with 0 by lia. cbn. apply app_nil_r. }
  assert (Hp : forall r j, pat_match r u j -> pat_match r (u ++ rest) j).
  { intros r j (Hj & Hl). split; [rewrite app_length; lia|]. rewrite Hf by lia. exact Hl. }
  intros [(hi & r & lo & E & (Hn & Hl) & Hmax & Hhi)|(Hno & -> & -> & Hs)].
  - left. exists hi, r, lo. split; [exact E|]. split; [split; [lia|]; rewrite <- (Hf n Hu); exact Hl|]. split.
    + intros r' k' n' Hin Hm. eapply Hmax; [exact Hin|]. now apply Hp.
    + intros r' k' Hin Hm. eapply Hhi; [exact Hin|]. now apply Hp.
  - right. split; [|split; [reflexivity|split; [reflexivity|destruct u; [cbn in Hu; lia|discriminate]]]]. intros r' k' n' Hin Hm. eapply Hno; [exact Hin|]. apply Hp, Hm.
Qed.
Lemma tokenizes_cut : forall l1 m p s l2, tokenizes m p s (l1 ++ l2) ->
  exists s1 s2, s = s1 ++ s2 /\ tokenizes m p s1 l1 /\ tokenizes (mode_of m l1) (p + blen s1) s2 l2.
Proof.
  induction l1 as [|t l1 IH]; intros m p s l2 H.
  - exists [], s. rewrite Nat.add_0_r. split; [reflexivity|]. split; [constructor|exact H].
  - cbn [app] in H. inversion H as [|? ? w rest k l Hn Ht E1 E2 E3]; subst. destruct (IH _ _ _ _ Ht) as (s1 & s2 & -> & H1 & H2).
    exists (w ++ s1), s2. split; [now rewrite app_assoc|]. split; [|rewrite blen_app, Nat.add_assoc; exact H2].
    apply tkz_cons; [|exact H1]. rewrite app_assoc in Hn. apply next_cut in Hn; [exact Hn|rewrite app_length; lia].
Qed.

(** ** The parser stops at the end of the input as it stops before a blank *)
Section Cut.
Variables (cx : pctx) (z : token).
Hypothesis Hz : t_kind z = TParam KWhiteSpace.
Lemma string_cut ty : forall T start stop n d line byte r L l b,
  string_go cx ty start stop n d (T ++ [z]) line byte = POk r (mkPst L l b) ->
  exists T', L = T' ++ [z] /\ string_go cx ty start stop n d T line byte = POk r (mkPst T' l b) /\ length T' < length T.
Proof.
  induction T as [|t T IH]; intros start stop n d line byte r L l b H; cbn [string_go app] in *.
  - rewrite Hz in H. destruct ty; cbn in H; unfold perr, perr_n in H; destruct (err_info _ _ _ _ _ _); discriminate.
  - assert (Hrec : forall stop' n' d' byte', string_go cx ty start stop' n' d' (T ++ [z]) line byte' = POk r (mkPst L l b) ->
      exists T', L = T' ++ [z] /\ string_go cx ty start stop' n' d' T line byte' = POk r (mkPst T' l b) /\ length T' < length (t :: T)).
    { intros stop' n' d' byte' X. destruct (IH _ _ _ _ _ _ _ _ _ _ X) as (T' & A & C & D). exists T'. split; [exact A|]. split; [exact C|]. cbn. lia. }
    destruct (lit_token ty (t_kind t)) as [q|]; [|unfold perr, perr_n in H; destruct (err_info _ _ _ _ _ _); discriminate].
    destruct q; try (now apply Hrec); try (unfold perr, perr_n in H; destruct (err_info _ _ _ _ _ _); discriminate).
    injection H as <- <- <- <-. exists T. split; [reflexivity|]. split; [reflexivity|cbn; lia].
Qed.
Lemma pbind_ok {A C} (m : pres pst A) (f : A -> pst -> pres pst C) r st : pbind m f = POk r st -> exists a s, m = POk a s /\ f a s = POk r st.
Proof. destruct m as [a s| | |]; try discriminate. intros H. exists a, s. now split. Qed.
Lemma to_component_ok k sp raw st c s : to_component cx k sp raw st = POk c s -> s = st /\ forall st2, to_component cx k sp raw st2 = POk c st2.
Proof.
  unfold to_component. assert (H : forall v, match comp_kind_of k with Some kind => POk (mkComp kind sp v) st | None => perr cx SComponentType st end = POk c s ->
    s = st /\ forall st2, match comp_kind_of k with Some kind => POk (mkComp kind sp v) st2 | None => perr cx SComponentType st2 end = POk c st2).
  { intros v. destruct (comp_kind_of k); [intros [= <- <-]; now split|]. unfold perr, perr_n. destruct (err_info _ _ _ _ _ _); discriminate. }
  destruct raw as [r|]; [|apply H]. destruct (has_escapes r); [|apply H]. unfold pslice. destruct (sl _ _); [apply H|discriminate].
Qed.
Lemma components_cut : forall fuel fuel' p w T line byte q line' byte', length T < fuel' ->
  components fuel cx p w (mkPst (T ++ [z]) line byte) = POk (q, Some z) (mkPst [] line' byte') ->
  exists st', components fuel' cx p w (mkPst T line byte) = POk (q, None) st'.
Proof.
  induction fuel as [|fuel IH]; intros fuel' p w T line byte q line' byte' Hf H; [discriminate|]. destruct fuel' as [|fuel']; [lia|].
  rewrite components_eq in H |- *. destruct T as [|t T]; cbn [app p_toks p_line p_byte] in *; cbv zeta in *.
  - rewrite Hz in H. cbn in H. injection H as <- _ _. now eexists.
  - cbn [length] in Hf. destruct (is_newline (t_kind t)).
    { destruct T as [|u T]; [|cbn in H; injection H as _ _ H; destruct T; discriminate]. cbn in *. injection H as <- _ _. now eexists. }
    assert (Hno : forall st' : pst, p_toks st' = T ++ [z] -> POk (p, Some t) st' <> POk (q, Some z) (mkPst [] line' byte')).
    { intros st' E [= _ _ X]. subst st'. cbn in E. destruct T; discriminate. }
    destruct (t_kind t) as [a|a|a|a|k|a|a|a|a]; try (exfalso; eapply Hno; [|exact H]; reflexivity).
    destruct (comp_action k).
    + exfalso. eapply Hno; [|exact H]. reflexivity.
    + exfalso. revert H. unfold perr, perr_n. destruct (err_info _ _ _ _ _ _); discriminate.
    + unfold comp_tail in *. apply pbind_ok in H. destruct H as ((sp & raw) & s & H1 & H2).
      assert (X : exists T' s', p_toks s = T' ++ [z] /\ length T' <= length T
        /\ (match lit_of_param k with Some ty => let! (r, st) := string_parse cx ty (tspan t) (set_byte (t_start t) (mkPst T line byte)) in POk (fst r, Some (snd r)) st
             | None => POk (tspan t, None) (set_byte (t_start t) (mkPst T line byte)) end) = POk (sp, raw) s' /\ s' = mkPst T' (p_line s) (p_byte s)).
      { destruct (lit_of_param k) as [ty|].
        - apply pbind_ok in H1. destruct H1 as (r & s1 & H1 & H3). unfold string_parse in H1. cbn [set_byte p_toks p_line p_byte] in H1. destruct s1 as [L1 l1 b1].
          destruct (string_cut _ _ _ _ _ _ _ _ _ _ _ _ H1) as (T' & -> & E & Hlt). injection H3 as <- <- <-. exists T', (mkPst T' l1 b1). repeat split; [lia|].
          unfold string_parse. cbn [set_byte p_toks p_line p_byte]. rewrite E. reflexivity.
        - injection H1 as <- <- <-. exists T, (mkPst T line (t_start t)). repeat split; lia. }
      destruct X as (T' & s' & Es & Hlt & -> & ->). cbn [pbind]. destruct s as [L l b]. cbn [p_toks p_line p_byte] in *. subst L.
      assert (Hgo : forall p1 w1 b1, components fuel cx p1 w1 (mkPst (T' ++ [z]) l b1) = POk (q, Some z) (mkPst [] line' byte') ->
         exists st', components fuel' cx p1 w1 (mkPst T' l b1) = POk (q, None) st').
      { intros p1 w1 b1 E. eapply IH; [|exact E]. lia. }
      assert (Hc : (if w then perr cx SExpectedPathDelimiter (set_byte (fst sp) (mkPst (T' ++ [z]) l b))
            else pbind (to_component cx k sp raw (mkPst (T' ++ [z]) l b)) (fun c st => components fuel cx (path_add c (path_set_end (t_end t) p)) true st)) = POk (q, Some z) (mkPst [] line' byte') ->
         exists st', (if w then perr cx SExpectedPathDelimiter (set_byte (fst sp) (mkPst T' l b))
            else pbind (to_component cx k sp raw (mkPst T' l b)) (fun c st => components fuel' cx (path_add c (path_set_end (t_end t) p)) true st)) = POk (q, None) st').
      { destruct w; [unfold perr, perr_n; destruct (err_info _ _ _ _ _ _); discriminate|]. intros E. apply pbind_ok in E. destruct E as (c & s2 & E1 & E2).
        destruct (to_component_ok _ _ _ _ _ _ E1) as (-> & E3). rewrite E3. cbn [pbind]. now apply Hgo. }
      destruct k; try (exact (Hc H2)). destruct w; [now apply Hgo|]. revert H2. unfold perr, perr_n. destruct (err_info _ _ _ _ _ _); discriminate.
Qed.
Lemma path_first_cut p k t T line q line' byte' : path_first cx p k t (T ++ [z]) line = POk (Some q, Some z) (mkPst [] line' byte') ->
  exists st', path_first cx p k t T line = POk (Some q, None) st'.
Proof.
  unfold path_first. cbv zeta. intros H. apply pbind_ok in H. destruct H as (c & s & H1 & H2). destruct (to_component_ok _ _ _ _ _ _ H1) as (-> & E). rewrite E. cbn [pbind].
  destruct (comp_is_root (px_src cx) c) as [root|]; [|discriminate].
  set (p1 := if path_is_empty _ && root then _ else _) in *. set (p2 := if comp_is_explicit c then _ else p1) in *.
  destruct (comp_is_local c && _); [revert H2; unfold perr, perr_n; destruct (err_info _ _ _ _ _ _); discriminate|].
  destruct (comp_is_explicit c && _); [revert H2; unfold perr, perr_n; destruct (err_info _ _ _ _ _ _); discriminate|].
  apply pbind_ok in H2. destruct H2 as ((p3 & nx) & s3 & H2 & H3).
  destruct (path_is_empty p3) eqn:Ee; [revert H3; unfold perr, perr_n; destruct (err_info _ _ _ _ _ _); discriminate|]. injection H3 as <- -> ->.
  destruct (components_cut _ (S (length T)) _ _ _ _ _ _ _ _ (Nat.lt_succ_diag_r _) H2) as (st' & ->). cbn [pbind]. rewrite Ee. now eexists.
Qed.
Lemma path_loop_cut : forall T p t line byte q line' byte', path_loop cx p (Some t) (T ++ [z]) line byte = POk (Some q, Some z) (mkPst [] line' byte') ->
  exists st', path_loop cx p (Some t) T line byte = POk (Some q, None) st'.
Proof.
  induction T as [|u T IH]; intros p t line byte q line' byte' H; rewrite path_loop_eq in H |- *; cbn [app] in *;
    (destruct (t_kind t) as [a|a|a|a|k|a|a|a|a]; try (revert H; unfold perr, perr_n; destruct (err_info _ _ _ _ _ _); discriminate)).
  - destruct (is_path_component k); [now apply (path_first_cut p k t []) in H|]. rewrite path_loop_eq, Hz in H. discriminate.
  - destruct (is_path_component k); [now apply (path_first_cut p k t (u :: T)) in H|]. now apply IH in H.
Qed.
Lemma parents_cut c : forall T n m nx ts, parents_go c n (T ++ [z]) = Some (m, nx, ts) ->
  (exists u T', nx = Some u /\ ts = T' ++ [z] /\ parents_go c n T = Some (m, Some u, T')) \/ (nx = Some z /\ ts = []).
Proof.
  induction T as [|t T IH]; intros n m nx ts H; cbn [app parents_go] in *.
  - rewrite Hz in H. injection H as _ <- <-. now right.
  - assert (Hst : Some (n, Some t, T ++ [z]) = Some (m, nx, ts) -> (exists u T', nx = Some u /\ ts = T' ++ [z] /\ Some (n, Some t, T) = Some (m, Some u, T')) \/ (nx = Some z /\ ts = [])).
    { intros [= <- <- <-]. left. now exists t, T. }
    destruct (t_kind t) as [a|a|a|a|k|a|a|a|a]; try (exact (Hst H)). destruct k; try (exact (Hst H)).
    destruct (n =? 255)%N; [destruct c; [discriminate|]|]; now apply IH.
Qed.
Lemma path_parse_cut k t T line byte q line' byte' : path_parse cx k t (mkPst (T ++ [z]) line byte) = POk (Some q, Some z) (mkPst [] line' byte') ->
  exists st', path_parse cx k t (mkPst T line byte) = POk (Some q, None) st'.
Proof.
  unfold path_parse. cbv zeta. unfold pslice. destruct (sl _ _) as [s|]; [|discriminate]. change (line_range (mkPst (T ++ [z]) line byte)) with (line_range (mkPst T line byte)). cbn [p_toks p_line p_byte].
  assert (Hd : path_loop cx (path_new (tspan t) (line_range (mkPst T line byte))) (Some t) (T ++ [z]) line byte = POk (Some q, Some z) (mkPst [] line' byte') ->
    exists st', path_loop cx (path_new (tspan t) (line_range (mkPst T line byte))) (Some t) T line byte = POk (Some q, None) st') by apply path_loop_cut.
  destruct k; try exact Hd.
  - destruct (parents_go _ _ (T ++ [z])) as [[[n nx] ts]|] eqn:E; [|discriminate]. destruct (parents_cut _ _ _ _ _ _ E) as [(u & T' & -> & -> & ->)|(-> & ->)]; [apply path_loop_cut|].
    rewrite path_loop_eq, Hz. discriminate.
  - destruct (streq s [47%N]); [|unfold perr, perr_n; destruct (err_info _ _ _ _ _ _); discriminate].
    destruct T as [|u T]; cbn [pnext app p_toks p_line p_byte]; [rewrite path_loop_eq, Hz; discriminate|apply path_loop_cut].
Qed.
End Cut.

(** ** [Render::evaluate]'s parse of a path, alone or followed by something that ends it *)
Lemma path_alone env h t : arg_head_ok h -> tail_ok t ->
  exists q st, path_from_str env (path_text h t) = POk (Some q) st /\ path_is (path_text h t) q h t.
Proof.
  intros Hh Ht. destruct (arg_path_good h t 0 Hh Ht) as (k & e & ts & _ & Hlex & Hparse). set (s := path_text h t) in *.
  set (z := Tok (TParam KWhiteSpace) (0 + blen s) (0 + blen s + 1)).
  assert (Hws : tokenizes MParam (0 + blen s) [32%N] [z]).
  { apply (tkz_cons MParam (0 + blen s) [32%N] [] (TParam KWhiteSpace) []); [|constructor]. apply (next_concrete MParam [32%N]); [discriminate|reflexivity|reflexivity]. }
  assert (Hsep : psep [32%N]) by (exists 32%N, []; split; [reflexivity|cbn; tauto]).
  specialize (Hlex [32%N] [z] Hsep Hws). destruct (tokenizes_cut (Tok (TParam k) 0 e :: ts) MParam 0 (s ++ [32%N]) [z] Hlex) as (s1 & s2 & Es & H1 & H2).
  assert (s1 = s).
  { assert (Hb : blen s1 = blen s) by (unfold z in H2; inversion H2; lia).
    assert (Hnil : forall l : str, blen l = 0 -> l = []) by (intros [|c l] X; [reflexivity|cbn in X; pose proof (clen_pos c); lia]).
    apply app_eq_app in Es. destruct Es as (l & [(E1 & _)|(E1 & _)]); apply (f_equal blen) in E1 as E2; rewrite blen_app in E2; rewrite (Hnil l) in E1 by lia; now rewrite app_nil_r in E1. }
  subst s1. apply app_inv_head in Es. subst s2.
  assert (El : lex_from MParam s = Some (Tok (TParam k) 0 e :: ts)).
  { destruct (lex_from_total MParam s) as (l & El & Hl). rewrite El. f_equal. eapply tokenizes_det; eassumption. }
  assert (Hat : at_ s 0 s) by (exists [], []; split; [now rewrite app_nil_r|reflexivity]).
  destruct (Hparse (mkPctx env s (lit "unknown")) [z] z [] 0 0 0 Hat) as (q & b & E & Hp & _).
  { left. split; [reflexivity|]. split; [|reflexivity]. exists KWhiteSpace. split; [reflexivity|now left]. }
  destruct (path_parse_cut (mkPctx env s (lit "unknown")) z eq_refl _ _ _ _ _ _ _ _ E) as (st & E2).
  exists q, st. split; [|exact Hp]. unfold path_from_str. rewrite El. cbv zeta. cbn [pnext p_toks p_line p_byte t_kind]. rewrite E2. reflexivity.
Qed.
