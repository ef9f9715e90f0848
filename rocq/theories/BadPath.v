(** * BadPath: the parser refuses paths with a mistake in them (Spec_Bad.bad_path). *)
From Coq Require Import Lia String.
From Verif Require Import Str Regex Lexer Json Ast ErrInfo Parser StrFacts RegexFacts Spec_Lexer LexerFacts CallFacts BlockFacts DocFacts Spec_Source
  SynLex SynStr SynPath SynCall SynTag SynDoc SynItem SynBlock Spec_Bad BadFacts BadParse BadQuote.
Open Scope nat_scope. Open Scope list_scope.

(** ** Going through a good path: the rest is read by [components] *)
Lemma tail_sep t rest : pathsep rest -> pathsep (tail_text t ++ rest).
Proof. intros Hr. destruct t as [|[[|] s] t]; [exact Hr|..]; cbn [tail_text delim_text app]; eexists _, _; (split; [reflexivity|]); cbn; tauto. Qed.
Lemma tail_run t : forall p, tail_ok t ->
  exists ts, (forall rest L, pathsep rest -> tokenizes MParam (p + blen (tail_text t)) rest L -> tokenizes MParam p (tail_text t ++ rest) (ts ++ L))
    /\ forall cx fuel q X line byte, at_ (px_src cx) p (tail_text t) -> length ts + length X < fuel ->
         exists q' fuel' byte', components fuel cx q true (mkPst (ts ++ X) line byte) = components fuel' cx q' true (mkPst X line byte') /\ length X < fuel'.
Proof.
  induction t as [|[d s] t IH]; intros p Hok.
  - exists []. split; [intros rest L _ HL; cbn in *; now rewrite Nat.add_0_r in HL|]. intros cx fuel q X line byte _ Hf. exists q, fuel, byte. cbn in *. split; [reflexivity|lia].
  - inversion Hok as [|x l Hs Ht]; subst. cbn [snd] in Hs.
    destruct (seg_good s (p + 1) Hs) as (ts1 & Hlex1 & Hlen1 & (c & r & Hc & Hc1 & Hc2) & Hparse1).
    destruct (IH (p + 1 + blen (seg_text s)) Ht) as (ts2 & Hlex2 & Hparse2).
    assert (Hdl : blen (delim_text d) = 1) by (destruct d; reflexivity).
    exists (Tok (TParam KPathDelim) p (p + 1) :: ts1 ++ ts2). split.
    + intros rest L Hr HL. cbn [tail_text]. rewrite <- !app_assoc. cbn [app]. rewrite <- app_assoc.
      rewrite <- Hdl at 1. apply tkz_cons.
      * rewrite Hc. cbn [app]. replace (length (delim_text d)) with 1 by (destruct d; reflexivity). now apply next_delim.
      * cbn [next_mode]. rewrite Hdl. apply Hlex1; [now apply tail_sep|].
        apply Hlex2; [exact Hr|]. cbn [tail_text] in HL. rewrite !blen_app, Hdl in HL.
        replace (p + 1 + blen (seg_text s) + blen (tail_text t)) with (p + (1 + (blen (seg_text s) + blen (tail_text t)))) by lia. exact HL.
    + intros cx fuel q X line byte Hat Hf. cbn [length] in Hf. rewrite app_length in Hf.
      destruct fuel as [|fuel]; [lia|]. destruct fuel as [|fuel]; [lia|]. cbn [tail_text] in Hat.
      assert (Hat1 : at_ (px_src cx) (p + 1) (seg_text s)) by (apply at_r in Hat; rewrite Hdl in Hat; now apply at_l in Hat).
      assert (Hat2 : at_ (px_src cx) (p + 1 + blen (seg_text s)) (tail_text t)) by (apply at_r in Hat; rewrite Hdl in Hat; now apply at_r in Hat).
      cbn [app]. rewrite components_eq. cbn [p_toks t_kind is_newline comp_action]. unfold comp_tail.
      cbn [lit_of_param pbind set_byte p_toks p_line p_byte t_start t_end]. rewrite <- app_assoc.
      destruct (Hparse1 cx fuel (path_set_end (p + 1) q) (ts2 ++ X) line p Hat1) as (comp & e & b1 & E1 & _).
      change (set_byte p (mkPst (ts1 ++ ts2 ++ X) line byte)) with (mkPst (ts1 ++ ts2 ++ X) line p). rewrite E1.
      apply Hparse2; [exact Hat2|lia].
Qed.
Definition reads (cx : pctx) (X : list token) (line : nat) (r : pres pst (option path * option token)) : Prop :=
  exists q fuel byte f, r = pbind (components fuel cx q true (mkPst X line byte)) f /\ length X < fuel.
Lemma first_run cx q0 k t toks line comp root X : (forall st, to_component cx k (tspan t) None st = POk comp st) -> comp_is_root (px_src cx) comp = Some root ->
  comp_is_local comp && (0 <? pa_parents q0)%N = false -> comp_is_explicit comp && (0 <? pa_parents q0)%N = false ->
  (forall q, exists q' fuel byte, components (S (length toks)) cx q (negb (comp_is_dot_slash comp)) (mkPst toks line (t_start t)) = components fuel cx q' true (mkPst X line byte) /\ length X < fuel) ->
  reads cx X line (path_first cx q0 k t toks line).
Proof.
  intros Hto Hr H1 H2 H. unfold path_first. rewrite Hto. cbn [pbind]. rewrite Hr. cbv zeta.
  set (q1 := if path_is_empty _ && root then _ else _). set (q2 := if comp_is_explicit comp then _ else q1).
  assert (Hp : pa_parents q2 = pa_parents q0) by (subst q2 q1; destruct (comp_is_explicit comp), (path_is_empty (path_set_end (t_end t) q0) && root); reflexivity).
  rewrite Hp, H1, H2. destruct (H (path_add comp q2)) as (q' & fuel & byte & E & Hl). rewrite E. exists q', fuel, byte. eexists. split; [reflexivity|exact Hl].
Qed.
Lemma one_run k kd w p t : In (k, kd) head_kinds -> tail_ok t ->
  exists ts, (forall rest L, pathsep rest -> tokenizes MParam (p + blen w + blen (tail_text t)) rest L -> tokenizes MParam (p + blen w) (tail_text t ++ rest) (ts ++ L))
    /\ forall cx q0 X line, at_ (px_src cx) p (w ++ tail_text t) -> pa_parents q0 = 0%N \/ k = KIdent ->
         reads cx X line (path_first cx q0 k (Tok (TParam k) p (p + blen w)) (ts ++ X) line).
Proof.
  intros Hk Ht. destruct (tail_run t (p + blen w) Ht) as (ts & Hlex & Hrun). exists ts. split; [exact Hlex|]. intros cx q0 X line Hat Hp.
  assert (Hcs : comp_str (px_src cx) (mkComp kd (p, p + blen w) None) = Some w) by (unfold comp_str; cbn; apply at_sl; [now apply at_l in Hat|reflexivity]).
  apply at_r in Hat. apply (first_run cx q0 k _ _ line (mkComp kd (p, p + blen w) None) (streq w (lit "@root"))).
  - intro st. cbn in Hk. destruct Hk as [[= <- <-]|[[= <- <-]|[[= <- <-]|[]]]]; reflexivity.
  - unfold comp_is_root. now rewrite Hcs.
  - cbn in Hk. destruct Hk as [[= <- <-]|[[= <- <-]|[[= <- <-]|[]]]]; (destruct Hp as [Hp|Hp]; [rewrite Hp|]); first [reflexivity|discriminate Hp].
  - cbn in Hk. destruct Hk as [[= <- <-]|[[= <- <-]|[[= <- <-]|[]]]]; (destruct Hp as [Hp|Hp]; [rewrite Hp|]); first [reflexivity|discriminate Hp].
  - intros q. replace (negb _) with true by (cbn in Hk; destruct Hk as [[= <- <-]|[[= <- <-]|[[= <- <-]|[]]]]; reflexivity).
    apply (Hrun cx (S (length (ts ++ X))) q X line); [exact Hat|rewrite app_length; lia].
Qed.
Lemma path_run h t p : head_ok h -> tail_ok t ->
  exists k e ts, start_kind k
    /\ (forall rest L, pathsep rest -> tokenizes MParam (p + blen (path_text h t)) rest L -> tokenizes MParam p (path_text h t ++ rest) (Tok (TParam k) p e :: ts ++ L))
    /\ forall cx X line byte, at_ (px_src cx) p (path_text h t) -> reads cx X line (path_parse cx k (Tok (TParam k) p e) (mkPst (ts ++ X) line byte)).
Proof.
  intros Hh Ht.
  assert (One : forall k kd w, In (k, kd) head_kinds -> head_text h = w -> (forall rest, pathsep rest -> next_token MParam (w ++ rest) (TParam k) (length w)) ->
    exists k e ts, start_kind k
    /\ (forall rest L, pathsep rest -> tokenizes MParam (p + blen (path_text h t)) rest L -> tokenizes MParam p (path_text h t ++ rest) (Tok (TParam k) p e :: ts ++ L))
    /\ forall cx X line byte, at_ (px_src cx) p (path_text h t) -> reads cx X line (path_parse cx k (Tok (TParam k) p e) (mkPst (ts ++ X) line byte))).
  { intros k kd w Hk Hw Hn. destruct (one_run k kd w p t Hk Ht) as (ts & Hlex & Hrun). exists k, (p + blen w), ts.
    split; [cbn in Hk; destruct Hk as [[= <- <-]|[[= <- <-]|[[= <- <-]|[]]]]; cbn; tauto|]. unfold path_text. rewrite Hw. split.
    - intros rest L Hr HL. rewrite <- app_assoc. apply tkz_cons; [now apply Hn, tail_sep|].
      replace (next_mode (TParam k)) with MParam by (cbn in Hk; destruct Hk as [[= <- <-]|[[= <- <-]|[[= <- <-]|[]]]]; reflexivity).
      rewrite blen_app, Nat.add_assoc in HL. now apply Hlex.
    - intros cx X line byte Hat. unfold path_parse. change (tspan (Tok (TParam k) p (p + blen w))) with (p, p + blen w). rewrite (at_sl _ p w) by (try reflexivity; now apply at_l in Hat). cbn [pslice].
      assert (G : reads cx X line (path_loop cx (path_new (p, p + blen w) (line_range (mkPst (ts ++ X) line byte))) (Some (Tok (TParam k) p (p + blen w))) (ts ++ X) line byte)).
      { rewrite path_loop_eq. cbn [t_kind].
        replace (is_path_component k) with true by (cbn in Hk; destruct Hk as [[= <- <-]|[[= <- <-]|[[= <- <-]|[]]]]; reflexivity).
        apply Hrun; [exact Hat|now left]. }
      cbn in Hk; destruct Hk as [[= <- <-]|[[= <- <-]|[[= <- <-]|[]]]]; exact G. }
  destruct h as [w| |s|k w|w|w]; [..|contradiction].
  - apply (One KIdent CIdentifier w); [cbn; tauto|reflexivity|]. intros rest Hr. now apply next_name.
  - apply (One KThis CThisKeyword (lit "this")); [cbn; tauto|reflexivity|]. intros rest Hr. apply next_word; [now left|exact Hr].
  - destruct (seg_good s (p + 2) Hh) as (ts1 & Hlex1 & Hlen1 & _ & Hparse1). destruct (tail_run t (p + 2 + blen (seg_text s)) Ht) as (ts2 & Hlex2 & Hrun).
    exists KThisDotSlash, (p + 2), (ts1 ++ ts2). split; [cbn; tauto|]. split.
    + intros rest L Hr HL. unfold path_text. cbn [head_text]. rewrite <- !app_assoc. change (p + 2) with (p + blen (lit "./")) at 1.
      apply tkz_cons; [apply next_dot_slash|]. cbn [next_mode]. change (p + blen (lit "./")) with (p + 2). apply Hlex1; [now apply tail_sep|].
      apply Hlex2; [exact Hr|]. unfold path_text in HL. cbn [head_text] in HL. rewrite !blen_app in HL. change (blen (lit "./")) with 2 in HL.
      replace (p + 2 + blen (seg_text s) + blen (tail_text t)) with (p + (2 + blen (seg_text s) + blen (tail_text t))) by lia. exact HL.
    + intros cx X line byte Hat. unfold path_text in Hat. cbn [head_text] in Hat. rewrite <- app_assoc in Hat.
      pose proof (at_l _ _ _ _ Hat) as Hd. apply at_r in Hat. change (p + blen (lit "./")) with (p + 2) in Hat. pose proof (at_l _ _ _ _ Hat) as Hat2. apply at_r in Hat.
      unfold path_parse. change (tspan (Tok (TParam KThisDotSlash) p (p + 2))) with (p, p + 2). rewrite (at_sl _ p (lit "./") (p + 2) Hd eq_refl). cbn [pslice].
      change (p_toks (mkPst ((ts1 ++ ts2) ++ X) line byte)) with ((ts1 ++ ts2) ++ X). cbn [p_line p_byte]. rewrite path_loop_eq. cbn [t_kind is_path_component].
      apply (first_run cx _ KThisDotSlash _ _ line (mkComp CThisDotSlash (p, p + 2) None) false); try reflexivity.
      * unfold comp_is_root, comp_str. cbn [cm_span]. now rewrite (at_sl _ p (lit "./") (p + 2) Hd eq_refl).
      * intros q. cbn [comp_is_dot_slash cm_kind negb t_start]. rewrite <- app_assoc.
        destruct (Hparse1 cx (length (ts1 ++ ts2 ++ X)) q (ts2 ++ X) line p Hat2) as (comp & e & b1 & E1 & _). rewrite E1.
        apply Hrun; [exact Hat|rewrite !app_length; lia].
  - destruct Hh as [Hk Hw]. destruct k as [|k]; [lia|]. set (p1 := p + blen (ups (S k))).
    destruct (one_run KIdent CIdentifier w p1 t (or_introl eq_refl) Ht) as (ts & Hlex & Hrun).
    exists KParentRef, (p + 3), (up_toks k (p + 3) ++ Tok (TParam KIdent) p1 (p1 + blen w) :: ts). split; [cbn; tauto|]. split.
    + intros rest L Hr HL. unfold path_text. cbn [head_text]. rewrite <- !app_assoc.
      change (Tok (TParam KParentRef) p (p + 3) :: up_toks k (p + 3) ++ (Tok (TParam KIdent) p1 (p1 + blen w) :: ts) ++ L)
        with (up_toks (S k) p ++ (Tok (TParam KIdent) p1 (p1 + blen w) :: ts ++ L)).
      apply ups_lex. fold p1. apply tkz_cons; [apply next_name; [exact Hw|now apply tail_sep]|]. cbn [next_mode].
      apply Hlex; [exact Hr|]. unfold path_text in HL. cbn [head_text] in HL. rewrite !blen_app in HL. fold p1 in HL.
      subst p1. replace (p + blen (ups (S k)) + blen w + blen (tail_text t)) with (p + (blen (ups (S k)) + blen w + blen (tail_text t))) by lia. exact HL.
    + intros cx X line byte Hat. unfold path_text in Hat. cbn [head_text] in Hat. rewrite <- app_assoc in Hat. pose proof (at_r _ _ _ _ Hat) as Hat1. fold p1 in Hat1.
      unfold path_parse. change (tspan (Tok (TParam KParentRef) p (p + 3))) with (p, p + 3).
      rewrite (at_sl _ p (lit "../")); [|cbn [ups] in Hat; rewrite <- app_assoc in Hat; now apply at_l in Hat|reflexivity].
      cbn [pslice p_toks p_line p_byte]. rewrite <- app_assoc. cbn [app].
      rewrite (parents_good _ k 1 (p + 3) (Tok (TParam KIdent) p1 (p1 + blen w)) (ts ++ X)) by (lia || exact I).
      rewrite path_loop_eq. cbn [t_kind is_path_component]. apply Hrun; [exact Hat1|now right].
  - destruct Hh as [H1 H2]. apply (One KLocalIdent CLocal ([64%N] ++ w)); [cbn; tauto|reflexivity|]. intros rest Hr. now apply next_local.
Qed.

(** ** Refused paths *)
Lemma next_delim_slash rest : next_token MParam ([47%N] ++ rest) (TParam KPathDelim) 1.
Proof. conc [47%N]. destruct rest; reflexivity. Qed.
(** one more character of lookahead than [next_concrete] *)
Lemma next_two m w d rest k : w <> [] -> pick (pats m) w = Some k -> forallb (fun rk => negb (nullable (derivs (w ++ [d]) (fst rk)))) (pats m) = true ->
  forallb (fun rk => bounded (fst rk) (w ++ [d]) rest) (pats m) = true -> next_token m (w ++ d :: rest) k (length w).
Proof.
  intros Hw Hp H1 Hb. left. destruct (pick_spec _ _ _ Hp) as (hi & r & lo & E & Hl & Hh).
  assert (Hmax : forall r' k' n', In (r', k') (pats m) -> pat_match r' (w ++ d :: rest) n' -> n' <= length w).
  { intros r' k' n' Hin Hm. rewrite forallb_forall in Hb, H1. specialize (Hb _ Hin). specialize (H1 _ Hin). cbn [fst] in Hb, H1.
    change (d :: rest) with ([d] ++ rest) in Hm. rewrite app_assoc in Hm. pose proof (bounded_spec _ _ _ _ Hb Hm) as Hle. rewrite app_length in Hle. cbn in Hle.
    destruct (Nat.eq_dec n' (length w + 1)) as [->|]; [exfalso|lia]. destruct Hm as [_ Hm]. rewrite firstn_app in Hm. rewrite app_length in Hm. cbn [length] in Hm.
    rewrite Nat.sub_diag, firstn_O, app_nil_r, firstn_all2 in Hm by (rewrite app_length; cbn; lia).
    rewrite <- (app_nil_r (w ++ [d])) in Hm. apply derivs_spec, nullable_spec in Hm. rewrite Hm in H1. discriminate. }
  exists hi, r, lo. split; [assumption|]. split; [|split; [assumption|]].
  - split; [|now rewrite firstn_app, firstn_all, Nat.sub_diag, firstn_O, app_nil_r]. rewrite app_length. destruct w; [congruence|cbn; lia].
  - intros r' k' Hin [_ Hm]. apply (Hh _ _ Hin). now rewrite firstn_app, firstn_all, Nat.sub_diag, firstn_O, app_nil_r in Hm.
Qed.
Lemma next_dot_dot s rest : s <> [] -> ~ starts_in [46; 47]%N s -> next_token MParam ([46%N] ++ [46%N] ++ s ++ rest) (TParam KPathDelim) 1.
Proof.
  intros Hs H. destruct s as [|c s]; [congruence|].
  assert (H2 : c <> 47%N) by (intros ->; apply H; exists 47%N, s; split; [reflexivity|cbn; tauto]).
  apply N.eqb_neq in H2. pose proof H2 as H2'. rewrite N.eqb_sym in H2'. apply (next_two MParam [46%N] 46%N); [discriminate|reflexivity|reflexivity|]. follow. rewrite ?H2, ?H2'. reflexivity.
Qed.
Lemma next_dot s rest : s <> [] -> ~ starts_in [46; 47]%N s -> next_token MParam ([46%N] ++ s ++ rest) (TParam KPathDelim) 1.
Proof.
  intros Hs H. destruct s as [|c s]; [congruence|]. apply (next_delim false); intros ->; apply H; eexists _, s; (split; [reflexivity|cbn; tauto]).
Qed.
Lemma tag_rest_nonempty s : tag_rest s -> s <> [].
Proof. intros (j & z & -> & _ & (b & r & -> & Hr)) E. apply app_eq_nil in E. destruct E as [_ E]. apply app_eq_nil in E. destruct E as [_ E]. cbn in Hr. destruct Hr as [<-|[<-|[<-|[]]]]; discriminate. Qed.
Definition path_refused (k : serr) (s : str) : Prop := forall p rest, nobrace rest -> exists kk e ts, arg_kind kk
  /\ (forall L, tokenizes MBlock (p + blen s) rest L -> tokenizes MParam p (s ++ rest) (Tok (TParam kk) p e :: ts ++ L))
  /\ forall cx L line byte, at_ (px_src cx) p s -> refuses cx k L (path_parse cx kk (Tok (TParam kk) p e) (mkPst (ts ++ L) line byte)).
(** after a good path *)
Lemma path_then h t x k : head_ok h -> tail_ok t ->
  (forall p rest, nobrace rest -> pathsep (x ++ rest) /\ exists X,
     (forall L, tokenizes MBlock (p + blen x) rest L -> tokenizes MParam p (x ++ rest) (X ++ L))
     /\ forall cx L fuel q line byte, length (X ++ L) < fuel -> refuses cx k L (components fuel cx q true (mkPst (X ++ L) line byte))) ->
  path_refused k (path_text h t ++ x).
Proof.
  intros Hh Ht H p rest Hr. destruct (path_run h t p Hh Ht) as (kk & e & ts & Hk & Hlex & Hrun). destruct (H (p + blen (path_text h t)) rest Hr) as (Hsep & X & HX & Href).
  exists kk, e, (ts ++ X). split; [now left|]. split.
  - intros L HL. rewrite <- app_assoc. rewrite <- app_assoc. apply Hlex; [exact Hsep|]. apply HX. rewrite blen_app, Nat.add_assoc in HL. exact HL.
  - intros cx L line byte Hat. apply at_l in Hat. rewrite <- app_assoc. destruct (Hrun cx (X ++ L) line byte Hat) as (q & fuel & b & f & E & Hf). rewrite E. apply refuses_bind. now apply Href.
Qed.
Lemma misplaced_action wk k kk : misplaced wk = Some k -> In kk (word_tok wk) -> comp_action kk = CaErr k /\ is_newline (TParam kk) = false.
Proof. destruct wk; cbn; intros [= <-] [<-|[]]; split; reflexivity. Qed.
Lemma word_nonempty wk w : word wk w -> w <> [].
Proof. intros H E. destruct (word_first wk w H) as (c & r & E' & _). congruence. Qed.
Lemma bad_path_refused k s : bad_path k s -> path_refused k s.
Proof.
  intros [h t d wk w s' k' Hh Ht Hw Hm Hd Hf Hs|h t wk w s' k' Hh Ht Hw Hi Hm Hs|h t d d' s' Hh Ht Hd Hs Hn|h t sg s' Hh Ht Hw Hlit Hs|h t d q u s' Hh Ht Hu Hs|n wk w s' k' Hn Hw Hm Hf Hs|s' Hs Hn].
  - apply path_then; [exact Hh|exact Ht|]. intros p rest Hr. split; [destruct d; eexists _, _; (split; [reflexivity|cbn; tauto])|].
    destruct (word_lex wk w s' rest Hw Hf) as (kk & Hk & Hnext). destruct (tag_rest_lex s' (p + 1 + blen w) rest Hs Hr) as (ts & _ & T2 & T3).
    destruct (misplaced_action _ _ _ Hm Hk) as [Ha Hnl]. assert (Hdl : blen (delim_text d) = 1) by (destruct d; reflexivity).
    exists (Tok (TParam KPathDelim) p (p + 1) :: Tok (TParam kk) (p + 1) (p + 1 + blen w) :: ts). split.
    + intros L HL. rewrite <- !app_assoc. cbn [app]. rewrite <- Hdl at 1. apply tkz_cons.
      * replace (length (delim_text d)) with 1 by (destruct d; reflexivity). destruct d; [apply next_delim_slash|]. apply next_dot; [now apply (word_nonempty wk)|now apply Hd].
      * cbn [next_mode]. rewrite Hdl. apply tkz_cons; [exact Hnext|]. rewrite (word_mode wk kk Hk). apply T3. rewrite !blen_app, Hdl in HL.
        replace (p + 1 + blen w + blen s') with (p + (1 + (blen w + blen s'))) by lia. exact HL.
    + intros cx L fuel q line byte Hfu. cbn [app length] in Hfu. destruct fuel as [|[|fuel]]; [lia..|]. cbn [app]. rewrite components_eq. cbn [p_toks t_kind is_newline comp_action]. unfold comp_tail.
      cbn [lit_of_param pbind set_byte p_toks p_line p_byte t_start t_end]. rewrite components_eq. cbn [p_toks t_kind set_byte p_line p_byte t_start]. rewrite Hnl, Ha. now apply refuses_perr.
  - apply path_then; [exact Hh|exact Ht|]. intros p rest Hr.
    assert (Hf : followed wk s') by (left; cbn in Hi; destruct Hi as [<-|[<-|[]]]; reflexivity).
    split; [cbn in Hi; destruct Hi as [<-|[<-|[]]]; inversion Hw; subst; eexists _, _; (split; [reflexivity|cbn; tauto])|].
    destruct (word_lex wk w s' rest Hw Hf) as (kk & Hk & Hnext). destruct (tag_rest_lex s' (p + blen w) rest Hs Hr) as (ts & _ & T2 & T3).
    destruct (misplaced_action _ _ _ Hm Hk) as [Ha Hnl]. exists (Tok (TParam kk) p (p + blen w) :: ts). split.
    + intros L HL. rewrite <- !app_assoc. cbn [app]. apply tkz_cons; [exact Hnext|]. rewrite (word_mode wk kk Hk). apply T3. rewrite !blen_app, Nat.add_assoc in HL. exact HL.
    + intros cx L fuel q line byte Hfu. cbn [app length] in Hfu. destruct fuel as [|fuel]; [lia|]. cbn [app]. rewrite components_eq. cbn [p_toks t_kind set_byte p_line p_byte t_start]. rewrite Hnl, Ha. now apply refuses_perr.
  - apply path_then; [exact Hh|exact Ht|]. intros p rest Hr. split; [destruct d; eexists _, _; (split; [reflexivity|cbn; tauto])|].
    destruct (tag_rest_lex s' (p + 2) rest Hs Hr) as (ts & _ & T2 & T3). pose proof (tag_rest_nonempty s' Hs) as Hne.
    exists (Tok (TParam KPathDelim) p (p + 1) :: Tok (TParam KPathDelim) (p + 1) (p + 2) :: ts). split.
    + intros L HL. rewrite <- !app_assoc. cbn [app]. assert (Hdl : forall d, blen (delim_text d) = 1) by (intros []; reflexivity). assert (Hdn : forall d, length (delim_text d) = 1) by (intros []; reflexivity).
      eapply (tkz _ _ (delim_text d)); [reflexivity| |now rewrite Hdl|].
      * rewrite Hdn. destruct d; [apply next_delim_slash|]. rewrite (Hd eq_refl). now apply next_dot_dot.
      * cbn [next_mode]. eapply (tkz _ _ (delim_text d')); [reflexivity| |rewrite Hdl, <- Nat.add_assoc; reflexivity|].
        -- rewrite Hdn. destruct d'; [apply next_delim_slash|]. now apply next_dot.
        -- cbn [next_mode]. apply T3. rewrite !blen_app, !Hdl in HL. replace (p + 2 + blen s') with (p + (1 + (1 + blen s'))) by lia. exact HL.
    + intros cx L fuel q line byte Hfu. cbn [app length] in Hfu. destruct fuel as [|[|fuel]]; [lia..|]. cbn [app]. rewrite components_eq. cbn [p_toks t_kind is_newline comp_action]. unfold comp_tail.
      cbn [lit_of_param pbind set_byte p_toks p_line p_byte t_start t_end]. rewrite components_eq. cbn [p_toks t_kind is_newline comp_action]. unfold comp_tail.
      cbn [lit_of_param pbind set_byte p_toks p_line p_byte t_start t_end]. now apply refuses_perr.
  - apply path_then; [exact Hh|exact Ht|]. intros p rest Hr. split; [destruct sg as [w|w|sg l]; [discriminate Hlit|..]; [|destruct sg]; eexists _, _; (split; [reflexivity|cbn; tauto])|].
    destruct sg as [w|w|sg l]; [discriminate Hlit|..].
    { destruct Hw as (H1 & H2 & H3). destruct (tag_rest_lex s' (p + 1 + blen w + 1) rest Hs Hr) as (ts & _ & T2 & T3).
    exists (Tok (TParam KStartArray) p (p + 1) :: Tok (TArray QText) (p + 1) (p + 1 + blen w) :: Tok (TArray QEnd) (p + 1 + blen w) (p + 1 + blen w + 1) :: ts). split.
    + intros L HL. cbn [seg_text]. rewrite <- !app_assoc. cbn [app]. eapply (tkz _ _ [91%N]); [reflexivity|apply next_open_array|reflexivity|]. cbn [next_mode].
      change (blen [91%N]) with 1. apply tkz_cons; [now apply next_array_text|]. cbn [next_mode].
      eapply (tkz _ _ [93%N]); [reflexivity|apply next_close_array|reflexivity|]. cbn [next_mode]. change (blen [93%N]) with 1. apply T3.
      cbn [seg_text] in HL. rewrite !blen_app in HL. change (blen [91%N]) with 1 in HL. change (blen [93%N]) with 1 in HL. replace (p + 1 + blen w + 1 + blen s') with (p + (1 + (blen w + 1) + blen s')) by lia. exact HL.
    + intros cx L fuel q line byte Hfu. cbn [app length] in Hfu. destruct fuel as [|fuel]; [lia|]. cbn [app]. rewrite components_eq. cbn [p_toks t_kind is_newline comp_action].
      unfold comp_tail, string_parse. cbn [lit_of_param pbind set_byte p_toks p_line p_byte tspan snd].
      rewrite string_go_eq. cbn [lit_token t_kind t_end]. rewrite string_go_eq. cbn [lit_token t_kind t_end]. cbn [pbind fst snd set_byte p_toks p_line p_byte]. now apply refuses_perr. }
    destruct (tag_rest_lex s' (p + blen (seg_text (SQuoted sg l))) rest Hs Hr) as (ts2 & _ & T2 & T3).
    destruct (quote_body sg (length l) l (p + 1) (le_n _) Hw) as (ts & Hlex & Hparse & Hlen).
    assert (Hq : blen [quote_of sg] = 1) by (destruct sg; reflexivity).
    exists (Tok (TParam (if sg then KSingleQuote else KDoubleQuote)) p (p + 1) :: ts ++ ts2). split.
    + intros L HL. cbn [seg_text] in *. rewrite <- !app_assoc. cbn [app]. rewrite <- Hq at 1.
      apply (tkz_cons _ _ [quote_of sg]); [apply next_quote|].
      replace (next_mode (TParam (if sg then KSingleQuote else KDoubleQuote))) with (qmode sg) by (destruct sg; reflexivity).
      rewrite Hq, <- app_assoc. apply Hlex. rewrite !blen_app in HL, T3. rewrite ?Hq in HL, T3. unfold sitems_text.
      replace (p + 1 + blen (flat_map (sitem_text (quote_of sg)) l) + 1) with (p + (1 + (blen (flat_map (sitem_text (quote_of sg)) l) + 1))) by lia. apply T3. match goal with |- tokenizes _ ?a _ _ => match type of HL with tokenizes _ ?b _ _ => replace a with b; [exact HL|] end end. rewrite !blen_app, Hq. lia.
    + intros cx L fuel q line byte Hfu. destruct fuel as [|fuel]; [cbn in Hfu; lia|]. cbn [app]. rewrite components_eq. cbn [p_toks t_kind is_newline].
      replace (comp_action (if sg then KSingleQuote else KDoubleQuote)) with CaTail by (destruct sg; reflexivity).
      unfold comp_tail. replace (lit_of_param (if sg then KSingleQuote else KDoubleQuote)) with (Some (qlit sg)) by (destruct sg; reflexivity).
      unfold string_parse. cbn [pbind set_byte p_toks p_line p_byte tspan snd t_start t_end]. rewrite <- app_assoc.
      destruct (Hparse cx (p + 1) (p + 1) false false (ts2 ++ L) line p) as (b & ->). cbn [pbind fst snd].
      destruct sg; cbn [set_byte p_toks p_line p_byte]; now apply refuses_perr.
  - apply path_then; [exact Hh|exact Ht|]. intros p rest Hr. split; [destruct d; eexists _, _; (split; [reflexivity|cbn; tauto])|].
    assert (Hdl : blen (delim_text d) = 1) by (destruct d; reflexivity).
    destruct (broken_quote q u (p + 1) Hu) as (ts & T1 & T2 & T3). destruct (tag_rest_lex s' (p + 1 + blen u) rest Hs Hr) as (ts2 & _ & S2 & S3).
    exists (Tok (TParam KPathDelim) p (p + 1) :: Tok (TParam (if q then KSingleQuote else KDoubleQuote)) (p + 1) (p + 1 + 1) :: ts ++ ts2). split.
    + intros L HL. rewrite <- !app_assoc. cbn [app]. rewrite <- Hdl at 1. apply tkz_cons.
      * replace (length (delim_text d)) with 1 by (destruct d; reflexivity). destruct Hu. cbn [app]. apply next_delim; destruct q; discriminate.
      * cbn [next_mode]. rewrite Hdl, <- app_assoc. apply T2. apply S3. rewrite !blen_app, Hdl in HL.
        replace (p + 1 + blen u + blen s') with (p + (1 + (blen u + blen s'))) by lia. exact HL.
    + intros cx L fuel q' line byte Hfu. cbn [app length] in Hfu. destruct fuel as [|[|fuel]]; [lia..|]. cbn [app]. rewrite components_eq. cbn [p_toks t_kind is_newline comp_action]. unfold comp_tail.
      cbn [lit_of_param pbind set_byte p_toks p_line p_byte t_start t_end]. rewrite components_eq. cbn [p_toks t_kind is_newline set_byte p_line p_byte t_start].
      replace (comp_action (if q then KSingleQuote else KDoubleQuote)) with CaTail by (destruct q; reflexivity).
      unfold comp_tail. replace (lit_of_param (if q then KSingleQuote else KDoubleQuote)) with (Some (qlit q)) by (destruct q; reflexivity).
      match goal with |- refuses _ _ _ (if ?b then _ else _) => replace b with false by (destruct q; reflexivity) end.
      do 2 apply refuses_bind. apply T3. exact S2.
  - intros p rest Hr. destruct n as [|n]; [lia|]. set (p1 := p + blen (ups (S n))).
    destruct (word_lex wk w s' rest Hw Hf) as (kk & Hk & Hnext). destruct (tag_rest_lex s' (p1 + blen w) rest Hs Hr) as (ts & _ & T2 & T3).
    exists KParentRef, (p + 3), (up_toks n (p + 3) ++ Tok (TParam kk) p1 (p1 + blen w) :: ts). split; [left; cbn; tauto|]. split.
    + intros L HL. rewrite <- !app_assoc.
      change (Tok (TParam KParentRef) p (p + 3) :: up_toks n (p + 3) ++ (Tok (TParam kk) p1 (p1 + blen w) :: ts) ++ L)
        with (up_toks (S n) p ++ (Tok (TParam kk) p1 (p1 + blen w) :: ts ++ L)).
      apply ups_lex. fold p1. apply tkz_cons; [exact Hnext|]. rewrite (word_mode wk kk Hk). apply T3. rewrite !blen_app, !Nat.add_assoc in HL. exact HL.
    + intros cx L line byte Hat. pose proof (at_r _ _ _ _ Hat) as Hat1. fold p1 in Hat1. apply at_l in Hat1. apply at_l in Hat.
      unfold path_parse. change (tspan (Tok (TParam KParentRef) p (p + 3))) with (p, p + 3).
      rewrite (at_sl _ p (lit "../")); [|cbn [ups] in Hat; now apply at_l in Hat|reflexivity].
      cbn [pslice p_toks p_line p_byte]. rewrite <- app_assoc. cbn [app].
      rewrite (parents_good _ n 1 (p + 3) (Tok (TParam kk) p1 (p1 + blen w)) (ts ++ L)) by (lia || (cbn [t_kind]; destruct wk; cbn in Hm; try discriminate Hm; cbn in Hk; destruct Hk as [<-|[]]; exact I)).
      rewrite path_loop_eq. cbn [t_kind].
      assert (Hcs : slice (px_src cx) p1 (p1 + blen w) = Some w) by (apply at_slice, Hat1).
      assert (Hgo : forall kd, In (kk, kd, k') [(KThis, CThisKeyword, SUnexpectedPathParentWithExplicit); (KThisDotSlash, CThisDotSlash, SUnexpectedPathParentWithExplicit); (KLocalIdent, CLocal, SUnexpectedPathParentWithLocal)] ->
        refuses cx k' L (path_first cx (path_set_parents (N.of_nat (1 + n)) (path_new (p, p + 3) (line_range (mkPst (up_toks n (p + 3) ++ Tok (TParam kk) p1 (p1 + blen w) :: ts ++ L) line byte)))) kk (Tok (TParam kk) p1 (p1 + blen w)) (ts ++ L) line)).
      { intros kd Hin. unfold path_first. change (tspan (Tok (TParam kk) p1 (p1 + blen w))) with (p1, p1 + blen w).
        assert (Hto : forall st, to_component cx kk (p1, p1 + blen w) None st = POk (mkComp kd (p1, p1 + blen w) None) st).
        { intros st. cbn in Hin. destruct Hin as [[= <- <- <-]|[[= <- <- <-]|[[= <- <- <-]|[]]]]; reflexivity. }
        rewrite Hto. cbn [pbind]. unfold comp_is_root, comp_str. cbn [cm_span]. unfold sl. cbn [fst snd]. rewrite Hcs. cbv zeta. set (q1 := if path_is_empty _ && _ then _ else _).
        assert (Hp : pa_parents q1 = N.of_nat (1 + n)) by (subst q1; destruct (path_is_empty _ && _); reflexivity).
        assert (Hlt : (0 <? N.of_nat (1 + n))%N = true) by (apply N.ltb_lt; lia).
        cbn in Hin. destruct Hin as [[= <- <- <-]|[[= <- <- <-]|[[= <- <- <-]|[]]]]; cbn [comp_is_local comp_is_explicit cm_kind andb pa_parents path_set_explicit]; rewrite ?Hp, Hlt; cbn [andb]; now apply refuses_perr. }
      destruct wk; cbn in Hm; try discriminate Hm; injection Hm as <-; cbn in Hk; destruct Hk as [<-|[]]; cbn [is_path_component].
      * apply (Hgo CLocal). cbn. tauto.
      * apply (Hgo CThisKeyword). cbn. tauto.
      * apply (Hgo CThisDotSlash). cbn. tauto.
  - intros p rest Hr. destruct (tag_rest_lex s' (p + 1) rest Hs Hr) as (ts & _ & T2 & T3). exists KPathDelim, (p + 1), ts. split; [now right|]. split.
    + intros L HL. rewrite <- app_assoc. eapply (tkz _ _ [46%N]); [reflexivity|apply next_dot; [now apply tag_rest_nonempty|exact Hn]|reflexivity|]. cbn [next_mode]. change (blen [46%N]) with 1. apply T3.
      rewrite blen_app, Nat.add_assoc in HL. exact HL.
    + intros cx L line byte Hat. apply at_l in Hat. unfold path_parse. change (tspan (Tok (TParam KPathDelim) p (p + 1))) with (p, p + 1). rewrite (at_sl _ p [46%N] (p + 1) Hat eq_refl). cbn [pslice].
      change (streq [46%N] [47%N]) with false. cbv iota. now apply refuses_perr.
Qed.
