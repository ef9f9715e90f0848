(** * SynPath: lexing and parsing of printed paths (Spec_Source). *)
From Coq Require Import Lia String.
From Verif Require Import Str Regex Lexer Json Ast ErrInfo Parser Render StrFacts RegexFacts Spec_Lexer LexerFacts CallFacts Spec_Source SynLex SynStr.
Open Scope nat_scope. Open Scope list_scope.

(** [w] stands at byte [p] of [src] *)
Definition at_ (src : str) (p : nat) (w : str) : Prop := exists a b, src = a ++ w ++ b /\ p = blen a.
Lemma at_slice src p w : at_ src p w -> slice src p (p + blen w) = Some w.
Proof. intros (a & b & -> & ->). apply slice_mid. Qed.
Lemma at_sl src p w q : at_ src p w -> q = p + blen w -> sl src (p, q) = Some w.
Proof. intros H ->. unfold sl. cbn. now apply at_slice. Qed.
Lemma at_l src p u v : at_ src p (u ++ v) -> at_ src p u.
Proof. intros (a & b & -> & ->). exists a, (v ++ b). split; [now rewrite <- app_assoc|reflexivity]. Qed.
Lemma at_r src p u v : at_ src p (u ++ v) -> at_ src (p + blen u) v.
Proof. intros (a & b & -> & ->). exists (a ++ u), b. split; [now rewrite <- !app_assoc|now rewrite blen_app]. Qed.
Lemma at_bnd src p w : at_ src p w -> bnd src p.
Proof. intros (a & b & -> & ->). apply bnd_app. Qed.
Lemma at_bnd_end src p w : at_ src p w -> bnd src (p + blen w).
Proof. intros (a & b & -> & ->). rewrite app_assoc, <- blen_app. apply bnd_app. Qed.

(** ** Tokens of parameter mode *)
Ltac conc w := apply (next_concrete MParam w); [discriminate|reflexivity|].
(** evaluate the closed character tests only *)
Ltac eval_eqb :=
  repeat (match goal with |- context [N.eqb ?a ?b] =>
    let v := eval vm_compute in (N.eqb a b) in
    match v with true => idtac | false => idtac end; change (N.eqb a b) with v end).
Ltac eval_ident :=
  repeat (match goal with |- context [is_ident ?a] =>
    let v := eval vm_compute in (is_ident a) in
    match v with true => idtac | false => idtac end; change (is_ident a) with v end).
Ltac follow := repeat (progress (cbn -[N.eqb is_ident]; eval_eqb; eval_ident)); cbn -[N.eqb is_ident].
Lemma next_delim d c rest : c <> 46%N -> c <> 47%N -> next_token MParam (delim_text d ++ c :: rest) (TParam KPathDelim) 1.
Proof.
  intros H1 H2. apply N.eqb_neq in H1, H2. pose proof H1 as H1'. pose proof H2 as H2'. rewrite N.eqb_sym in H1', H2'. destruct d.
  - conc [47%N]. reflexivity.
  - conc [46%N]. follow. rewrite ?H1, ?H2, ?H1', ?H2'. reflexivity.
Qed.
Lemma next_open_array rest : next_token MParam ([91%N] ++ rest) (TParam KStartArray) 1.
Proof. conc [91%N]. destruct rest; reflexivity. Qed.
Lemma next_close_array rest : next_token MArray ([93%N] ++ rest) (TArray QEnd) 1.
Proof. apply (next_concrete MArray [93%N]); [discriminate|reflexivity|]. destruct rest; reflexivity. Qed.
Lemma next_array_text w rest : w <> [] -> (forall c, In c w -> c <> 93%N /\ c <> 10%N) -> w <> [92%N] ->
  next_token MArray (w ++ [93%N] ++ rest) (TArray QText) (length w).
Proof.
  intros Hw Hc H92. destruct w as [|c w]; [congruence|].
  eapply (next_intro MArray [] (RPlus (RChr (fun c => negb (class [93; 10]%N c)))) (TArray QText) (tag TArray (tl pats_array)));
    [reflexivity|discriminate| |intros ? ? ? []|].
  - apply lang_plus_chr. split; [discriminate|]. apply forallb_forall. intros x Hx. destruct (Hc x Hx) as [H1 H2].
    apply N.eqb_neq in H1, H2. unfold class. cbn -[N.eqb]. now rewrite H1, H2.
  - destruct (Hc c (or_introl eq_refl)) as [H1 H2]. apply N.eqb_neq in H1, H2. rewrite N.eqb_sym in H1, H2.
    intros r' k' n' [[= <- <-]|Hin] Hm.
    + eapply chars_bound; [|exact Hm]. reflexivity.
    + apply in_tag in Hin. destruct Hin as (a & -> & Hin). cbn [tl pats_array In] in Hin.
      destruct Hin as [Hin|[Hin|[Hin|[]]]]; injection Hin as <- <-.
      * apply lit_bound in Hm. destruct Hm as [-> Hm]. destruct w as [|d w]; [|cbn; lia]. exfalso.
        cbn in Hm. injection Hm as Hm. subst c. now apply H92.
      * exfalso. eapply first_bound; [|exact Hm]. cbn -[N.eqb]. exact H1.
      * exfalso. eapply first_bound; [|exact Hm]. cbn -[N.eqb]. exact H2.
Qed.
Lemma next_word w k rest : In (w, k) [(lit "this", KThis)] -> pathsep rest -> next_token MParam (w ++ rest) (TParam k) (length w).
Proof.
  intros [[= <- <-]|[]] (d & r & -> & Hd). conc (lit "this").
  cbn in Hd. repeat (destruct Hd as [<-|Hd]; [reflexivity|]). contradiction.
Qed.
Lemma next_dot_slash rest : next_token MParam (lit "./" ++ rest) (TParam KThisDotSlash) 2.
Proof. conc (lit "./"). destruct rest; reflexivity. Qed.
Lemma next_parent rest : next_token MParam (lit "../" ++ rest) (TParam KParentRef) 3.
Proof. conc (lit "../"). destruct rest; reflexivity. Qed.

Lemma name_head w : name_ok w -> exists c w', w = c :: w' /\ c <> 46%N /\ c <> 47%N /\ ~ In c [123; 126; 9; 32; 35; 47; 33; 125]%N.
Proof.
  intros (H1 & H2 & _)%name_in. destruct w as [|c w]; [contradiction|]. exists c, w. split; [reflexivity|].
  cbn in H2. apply andb_true_iff in H2. destruct H2 as [H2 _].
  pose proof (ident_not_ws c H2) as Hw.
  split; [apply (ident_not_excluded c 46%N H2); vm_compute; tauto|].
  split; [apply (ident_not_excluded c 47%N H2); vm_compute; tauto|].
  intro Hin. cbn in Hin. repeat (destruct Hin as [<-|Hin]; [vm_compute in H2; discriminate|]). contradiction.
Qed.

Lemma next_quote (sg : bool) rest : next_token MParam ([quote_of sg] ++ rest) (TParam (if sg then KSingleQuote else KDoubleQuote)) 1.
Proof. destruct sg; [conc [39%N]|conc [34%N]]; destruct rest; reflexivity. Qed.

(** ** Segments *)
Definition stop_tok (nx : token) : Prop := exists k, t_kind nx = TParam k /\ In k [KWhiteSpace; KEnd; KEndSub; KPartial; KError].
(** the tokens [X] after a path or argument: the parser goes on with [nx], then [L]; a newline directly after a path is skipped *)
Definition lands (X : list token) (line : nat) (nx : token) (L : list token) (line' : nat) : Prop :=
  (X = nx :: L /\ stop_tok nx /\ line' = line) \/ (exists t, X = t :: nx :: L /\ t_kind t = TParam KNewline /\ line' = S line).
Lemma lands_len X line nx L line' : lands X line nx L line' -> length L < length X.
Proof. intros [(-> & _)|(t & -> & _)]; cbn; lia. Qed.

(** the fields of a path that reading further segments leaves alone *)
Definition same_head (p q : path) : Prop :=
  pa_parents q = pa_parents p /\ pa_explicit q = pa_explicit p /\ pa_root q = pa_root p /\ pa_absolute q = pa_absolute p
  /\ fst (pa_span q) = fst (pa_span p).
Lemma same_head_trans p q r : same_head p q -> same_head q r -> same_head p r.
Proof. unfold same_head. intuition congruence. Qed.
Lemma same_head_end e p : same_head p (path_set_end e p).
Proof. repeat split. Qed.
Lemma same_head_add c p : same_head p (path_add c p).
Proof. repeat split. Qed.

Lemma comp_values_app src a b va vb : comp_values src a = Some va -> comp_values src b = Some vb -> comp_values src (a ++ b) = Some (va ++ vb).
Proof.
  revert va. induction a as [|c a IH]; intros va H1 H2; cbn in *; [injection H1 as <-; exact H2|].
  destruct (comp_value src c); [|discriminate]. destruct (comp_values src a); [|discriminate].
  injection H1 as <-. now rewrite (IH _ eq_refl H2).
Qed.

(** one segment after its delimiter: [components] with [wants_delim = false] adds one component *)
Lemma seg_good s p : seg_ok s ->
  exists ts, (forall rest L, pathsep rest -> tokenizes MParam (p + blen (seg_text s)) rest L ->
                tokenizes MParam p (seg_text s ++ rest) (ts ++ L))
    /\ 1 <= length ts
    /\ (exists c r, seg_text s = c :: r /\ c <> 46%N /\ c <> 47%N)
    /\ forall cx fuel q L line byte, at_ (px_src cx) p (seg_text s) ->
         exists comp e byte',
           components (S fuel) cx q false (mkPst (ts ++ L) line byte)
           = components fuel cx (path_add comp (path_set_end e q)) true (mkPst L line byte')
           /\ comp_value (px_src cx) comp = Some (seg_value s)
           /\ e = p + blen (seg_shown s).
Proof.
  intro Hs. destruct s as [w|w|sg l].
  - (* name *)
    exists [Tok (TParam KIdent) p (p + blen w)]. split; [|split; [cbn; lia|split]].
    + intros rest L Hr HL. cbn [seg_text app]. apply tkz_cons; [now apply next_name|exact HL].
    + destruct (name_head w Hs) as (c & w' & -> & H1 & H2 & _). exists c, w'. auto.
    + intros cx fuel q L line byte Hat. cbn [app]. rewrite components_eq. cbn [p_toks t_kind is_newline comp_action comp_tail lit_of_param pbind].
      eexists (mkComp CIdentifier (p, p + blen w) None), (p + blen w), _. split; [reflexivity|].
      split; [|reflexivity]. unfold comp_value, comp_str. cbn [cm_value cm_span]. now apply at_sl.
  - (* bracket *)
    destruct Hs as (H1 & H2 & H3).
    exists [Tok (TParam KStartArray) p (p + 1); Tok (TArray QText) (p + 1) (p + 1 + blen w); Tok (TArray QEnd) (p + 1 + blen w) (p + 1 + blen w + 1)].
    split; [|split; [cbn; lia|split]].
    + intros rest L Hr HL. cbn [seg_text]. rewrite <- !app_assoc.
      change (p + 1) with (p + blen [91%N]) at 1.
      apply (tkz_cons _ _ [91%N]); [apply next_open_array|]. cbn [next_mode].
      change (blen [91%N]) with 1.
      apply tkz_cons; [now apply next_array_text|]. cbn [next_mode].
      change (p + 1 + blen w + 1) with (p + 1 + blen w + blen [93%N]).
      apply (tkz_cons _ _ [93%N]); [apply next_close_array|]. cbn [next_mode].
      replace (p + 1 + blen w + blen [93%N]) with (p + blen (seg_text (SBracket w))); [exact HL|].
      cbn [seg_text]. rewrite !blen_app. change (blen [91%N]) with 1. change (blen [93%N]) with 1. lia.
    + exists 91%N, (w ++ [93%N]). repeat split; discriminate.
    + intros cx fuel q L line byte Hat. cbn [app]. rewrite components_eq. cbn [p_toks t_kind is_newline comp_action].
      unfold comp_tail, string_parse. cbn [lit_of_param pbind set_byte p_toks p_line p_byte tspan snd].
      rewrite string_go_eq. cbn [lit_token t_kind t_end]. rewrite string_go_eq. cbn [lit_token t_kind t_end].
      cbn [pbind fst snd]. unfold to_component. cbn [has_escapes rl_newline rl_delim orb comp_kind_of pbind].
      eexists (mkComp (CRaw RawArray) (p + 1, p + 1 + blen w) None), (p + 1), _. split; [reflexivity|].
      split; [|reflexivity]. unfold comp_value, comp_str. cbn [cm_value cm_span].
      cbn [seg_text] in Hat. apply at_r in Hat. apply at_l in Hat. now apply at_sl.
  - (* quoted *)
    destruct (quote_body sg (length l) l (p + 1) (le_n _) Hs) as (ts & Hlex & Hparse & Hlen).
    assert (Hq : blen [quote_of sg] = 1) by (destruct sg; reflexivity).
    exists (Tok (TParam (if sg then KSingleQuote else KDoubleQuote)) p (p + 1) :: ts). split; [|split; [cbn; lia|split]].
    + intros rest L Hr HL. cbn [seg_text]. rewrite <- !app_assoc. cbn [app]. rewrite <- Hq.
      apply (tkz_cons _ _ [quote_of sg]); [apply next_quote|].
      replace (next_mode (TParam (if sg then KSingleQuote else KDoubleQuote))) with (qmode sg) by (destruct sg; reflexivity).
      rewrite Hq. apply Hlex. cbn [seg_text] in HL. rewrite !blen_app, Hq in HL. unfold sitems_text.
      replace (p + 1 + blen (flat_map (sitem_text (quote_of sg)) l) + 1) with (p + (1 + (blen (flat_map (sitem_text (quote_of sg)) l) + 1))) by lia. exact HL.
    + eexists _, _. split; [reflexivity|]. destruct sg; split; discriminate.
    + intros cx fuel q L line byte Hat.
      destruct (Hparse cx (p + 1) (p + 1) false false L line p) as (b & Eb). cbn [orb] in Eb.
      cbn [seg_text] in Hat. apply at_r in Hat. rewrite Hq in Hat. apply at_l in Hat. fold (sitems_text (quote_of sg) l) in Hat.
      assert (Hsl : sl (px_src cx) (p + 1, match l with [] => p + 1 | _ => p + 1 + blen (sitems_text (quote_of sg) l) end) = Some (sitems_text (quote_of sg) l)).
      { destruct l as [|x l]; [|now apply at_sl]. apply at_sl; [exact Hat|]. cbn. lia. }
      set (sp := (p + 1, match l with [] => p + 1 | _ => p + 1 + blen (sitems_text (quote_of sg) l) end)) in *.
      set (fl := mkRaw (has_newline l) (has_quote l) (qlit sg)) in *.
      assert (Hv : (if has_escapes fl then raw_owned fl (sitems_text (quote_of sg) l) else sitems_text (quote_of sg) l) = map (sitem_value (quote_of sg)) l)
        by (rewrite <- (raw_owned_items (quote_of sg) l (qlit sg)); [fold fl; subst fl; unfold has_escapes, raw_owned; cbn [rl_newline rl_delim rl_type];
              destruct (has_newline l), (has_quote l); reflexivity|..]; try assumption; destruct sg; try reflexivity; discriminate).
      exists (mkComp (CRaw (if sg then RawSingle else RawDouble)) sp (if has_escapes fl then Some (raw_owned fl (sitems_text (quote_of sg) l)) else None)), (p + 1), b.
      split; [|split].
      * cbn [app]. rewrite components_eq. cbn [p_toks t_kind is_newline].
        replace (comp_action (if sg then KSingleQuote else KDoubleQuote)) with CaTail by (destruct sg; reflexivity).
        unfold comp_tail. replace (lit_of_param (if sg then KSingleQuote else KDoubleQuote)) with (Some (qlit sg)) by (destruct sg; reflexivity).
        unfold string_parse. cbn [pbind set_byte p_toks p_line p_byte tspan snd t_start t_end]. rewrite Eb. cbn [pbind fst snd].
        assert (Hto : forall st, to_component cx (if sg then KSingleQuote else KDoubleQuote) sp (Some fl) st
                  = POk (mkComp (CRaw (if sg then RawSingle else RawDouble)) sp (if has_escapes fl then Some (raw_owned fl (sitems_text (quote_of sg) l)) else None)) st).
        { intros st. unfold to_component. rewrite Hsl. destruct (has_escapes fl), sg; reflexivity. }
        rewrite Hto. cbn [pbind]. destruct sg; reflexivity.
      * unfold comp_value, comp_str. cbn [cm_value cm_span seg_value]. rewrite Hsl, <- Hv. destruct (has_escapes fl); reflexivity.
      * cbn [seg_shown]. rewrite Hq. reflexivity.
Qed.

Lemma components_stop cx fuel q wants X nx L line line' byte : lands X line nx L line' ->
  exists byte', components (S fuel) cx q wants (mkPst (X) line byte) = POk (q, Some nx) (mkPst L line' byte').
Proof.
  intros [(-> & (k & Hk & Hin) & ->)|(t & -> & Hk & ->)].
  2: { rewrite components_eq. cbn [p_toks]. rewrite Hk. cbn. eexists. reflexivity. }
  rewrite components_eq. cbn [p_toks]. rewrite Hk. cbn [In] in Hin.
  repeat (destruct Hin as [<-|Hin]; [cbn [is_newline comp_action set_byte p_toks p_line p_byte]; eexists; reflexivity|]). contradiction.
Qed.

Definition last_literal (t : tail) : bool := match rev t with (_, s) :: _ => seg_literal s | _ => false end.
Lemma last_literal_cons x y t : last_literal (x :: y :: t) = last_literal (y :: t).
Proof.
  unfold last_literal. cbn [rev]. destruct (rev t) as [|z l]; cbn [app]; destruct y as [? []]; try reflexivity.
Qed.

Lemma seg_shown_prefix s : exists r, seg_text s = seg_shown s ++ r.
Proof. destruct s as [w|w|sg l]; cbn; [exists []; now rewrite app_nil_r|eexists; reflexivity|eexists; reflexivity]. Qed.
Lemma tail_shown_cons d s y t : tail_shown ((d, s) :: y :: t) = delim_text d ++ seg_text s ++ tail_shown (y :: t).
Proof. reflexivity. Qed.
Lemma tail_shown_prefix t : exists r, tail_text t = tail_shown t ++ r.
Proof.
  induction t as [|[d s] [|y t] IH]; [exists []; reflexivity|..].
  - destruct (seg_shown_prefix s) as (r & E). exists r. cbn. rewrite E, app_nil_r, app_assoc. reflexivity.
  - destruct IH as (r & E). exists r. rewrite tail_shown_cons. change (tail_text ((d, s) :: y :: t)) with (delim_text d ++ seg_text s ++ tail_text (y :: t)). rewrite E, <- !app_assoc. reflexivity.
Qed.
Lemma seg_shown_plain s : seg_literal s = false -> seg_shown s = seg_text s.
Proof. destruct s; [reflexivity|discriminate..]. Qed.
Lemma tail_shown_plain t : last_literal t = false -> tail_shown t = tail_text t.
Proof.
  induction t as [|[d s] [|y t] IH]; [reflexivity|..].
  - intros H. cbn. rewrite (seg_shown_plain s H), app_nil_r. reflexivity.
  - rewrite last_literal_cons, tail_shown_cons. intros H. rewrite (IH H). reflexivity.
Qed.
Lemma seg_shown_at src p s : at_ src p (seg_text s) -> at_ src p (seg_shown s).
Proof. destruct (seg_shown_prefix s) as (r & E). rewrite E. apply at_l. Qed.
Lemma tail_good t : forall p, tail_ok t ->
  exists ts, (forall rest L, psep rest -> tokenizes MParam (p + blen (tail_text t)) rest L ->
                tokenizes MParam p (tail_text t ++ rest) (ts ++ L))
    /\ (t <> [] -> exists r, tail_text t = 46%N :: r \/ tail_text t = 47%N :: r)
    /\ forall cx fuel q X nx L line line' byte, at_ (px_src cx) p (tail_text t) -> lands X line nx L line' -> length ts < fuel ->
         exists q' byte' cs,
           components fuel cx q true (mkPst (ts ++ X) line byte) = POk (q', Some nx) (mkPst L line' byte')
           /\ pa_comps q' = pa_comps q ++ cs
           /\ comp_values (px_src cx) cs = Some (map (fun x => seg_value (snd x)) t)
           /\ same_head q q'
           /\ (t = [] -> q' = q)
           /\ (t <> [] -> bnd (px_src cx) (snd (pa_span q')) /\ p <= snd (pa_span q'))
           /\ (t <> [] -> snd (pa_span q') = p + blen (tail_shown t)).
Proof.
  induction t as [|[d s] t IH]; intros p Hok.
  - exists []. split; [|split].
    + intros rest L _ HL. cbn in *. now rewrite Nat.add_0_r in HL.
    + congruence.
    + intros cx fuel q X nx L line line' byte _ Hnx Hf. destruct fuel as [|fuel]; [cbn in Hf; lia|].
      destruct (components_stop cx fuel q true X nx L line line' byte Hnx) as (b & Hb). exists q, b, [].
      cbn [app] in *. rewrite Hb. rewrite app_nil_r. repeat split; congruence.
  - inversion Hok as [|x l Hs Ht]; subst. cbn [snd] in Hs.
    destruct (seg_good s (p + 1) Hs) as (ts1 & Hlex1 & Hlen1 & (c & r & Hc & Hc1 & Hc2) & Hparse1).
    destruct (IH (p + 1 + blen (seg_text s)) Ht) as (ts2 & Hlex2 & Hhead & Hparse2).
    assert (Hdl : blen (delim_text d) = 1) by (destruct d; reflexivity).
    exists (Tok (TParam KPathDelim) p (p + 1) :: ts1 ++ ts2). split; [|split].
    + intros rest L Hr HL. cbn [tail_text]. rewrite <- !app_assoc. cbn [app]. rewrite <- app_assoc.
      rewrite <- Hdl at 1. apply tkz_cons.
      * rewrite Hc. cbn [app]. replace (length (delim_text d)) with 1 by (destruct d; reflexivity). now apply next_delim.
      * cbn [next_mode]. rewrite Hdl. apply Hlex1.
        -- destruct t as [|y t']; [cbn; now apply psep_path|]. destruct Hhead as (r' & [Hr'|Hr']); [discriminate|..]; rewrite Hr'; cbn [app]; eexists _, _; (split; [reflexivity|]); cbn; tauto.
        -- apply Hlex2; [exact Hr|]. cbn [tail_text] in HL. rewrite !blen_app, Hdl in HL.
           replace (p + 1 + blen (seg_text s) + blen (tail_text t)) with (p + (1 + (blen (seg_text s) + blen (tail_text t)))) by lia. exact HL.
    + intros _. destruct d; cbn; eexists; [now right|now left].
    + intros cx fuel q X nx L line line' byte Hat Hnx Hf. cbn [length] in Hf. rewrite app_length in Hf.
      destruct fuel as [|fuel]; [lia|]. destruct fuel as [|fuel]; [lia|].
      cbn [tail_text] in Hat.
      assert (Hat1 : at_ (px_src cx) (p + 1) (seg_text s)) by (apply at_r in Hat; rewrite Hdl in Hat; now apply at_l in Hat).
      assert (Hat2 : at_ (px_src cx) (p + 1 + blen (seg_text s)) (tail_text t)) by (apply at_r in Hat; rewrite Hdl in Hat; now apply at_r in Hat).
      cbn [app]. rewrite components_eq. cbn [p_toks t_kind is_newline comp_action]. unfold comp_tail.
      cbn [lit_of_param pbind set_byte p_toks p_line p_byte t_start t_end]. rewrite <- app_assoc.
      destruct (Hparse1 cx fuel (path_set_end (p + 1) q) (ts2 ++ X) line p Hat1) as (comp & e & b1 & E1 & Hv & He).
      change (set_byte p (mkPst (ts1 ++ ts2 ++ X) line byte)) with (mkPst (ts1 ++ ts2 ++ X) line p).
      rewrite E1.
      destruct (Hparse2 cx fuel (path_add comp (path_set_end e (path_set_end (p + 1) q))) X nx L line line' b1 Hat2 Hnx ltac:(lia))
        as (q' & b2 & cs & E2 & Hcs & Hvs & Hsame & Hnil & Hspan & Hend).
      exists q', b2, (comp :: cs). rewrite E2. split; [reflexivity|]. split; [|split; [|split; [|split; [|split]]]].
      * rewrite Hcs. cbn. now rewrite <- app_assoc.
      * cbn. now rewrite Hv, Hvs.
      * eapply same_head_trans; [|exact Hsame]. repeat split.
      * congruence.
      * intros _. destruct t as [|y t'].
        -- rewrite (Hnil eq_refl). cbn [pa_span path_add path_set_end snd]. subst e. split; [|lia].
           exact (at_bnd_end _ _ _ (seg_shown_at _ _ _ Hat1)).
        -- destruct (Hspan ltac:(discriminate)) as [Hb Hp]. split; [exact Hb|lia].
      * intros _. destruct t as [|y t'].
        -- rewrite (Hnil eq_refl). cbn -[blen tail_shown]. subst e. cbn [tail_shown]. rewrite !blen_app, Hdl. lia.
        -- rewrite (Hend ltac:(discriminate)), tail_shown_cons. rewrite !blen_app, Hdl. lia.
Qed.

(** ** A path whose first component is one token *)
Lemma path_first_run cx p k t toks line comp root q nx st' :
  pa_comps p = [] ->
  (forall st, to_component cx k (tspan t) None st = POk comp st) ->
  comp_is_root (px_src cx) comp = Some root ->
  (comp_is_local comp && (0 <? pa_parents p)%N) = false /\ (comp_is_explicit comp && (0 <? pa_parents p)%N) = false ->
  components (S (length toks)) cx
    (path_add comp (let q1 := path_set_end (t_end t) p in
                    let q2 := if root then path_set_root true q1 else q1 in
                    if comp_is_explicit comp then path_set_explicit true q2 else q2))
    (negb (comp_is_dot_slash comp)) (mkPst toks line (t_start t)) = POk (q, nx) st' ->
  pa_comps q <> [] ->
  path_first cx p k t toks line = POk (Some q, nx) st'.
Proof.
  intros Hc Hto Hr [H1 H2] E Hq. unfold path_first. rewrite Hto. cbn [pbind]. rewrite Hr.
  assert (He : path_is_empty (path_set_end (t_end t) p) = true) by (unfold path_is_empty; cbn; now rewrite Hc).
  rewrite He. cbn [andb]. cbv zeta in E.
  set (q3 := if comp_is_explicit comp then _ else _) in *.
  assert (Hp : pa_parents q3 = pa_parents p) by (subst q3; destruct (comp_is_explicit comp), root; reflexivity).
  rewrite Hp, H1, H2, E. cbn [pbind]. unfold path_is_empty. destruct (pa_comps q); [congruence|reflexivity].
Qed.

Definition head_kinds : list (tparam * comp_kind) := [(KIdent, CIdentifier); (KThis, CThisKeyword); (KLocalIdent, CLocal)].
Lemma first_good k kd w p0 t : In (k, kd) head_kinds -> tail_ok t ->
  exists ts, (forall rest L, psep rest -> tokenizes MParam (p0 + blen w + blen (tail_text t)) rest L ->
                tokenizes MParam (p0 + blen w) (tail_text t ++ rest) (ts ++ L))
    /\ (forall rest, psep rest -> pathsep (tail_text t ++ rest))
    /\ forall cx q0 X nx L line line', pa_comps q0 = [] -> at_ (px_src cx) p0 (w ++ tail_text t) -> lands X line nx L line' ->
         pa_parents q0 = 0%N \/ k = KIdent ->
         exists q byte',
           path_first cx q0 k (Tok (TParam k) p0 (p0 + blen w)) (ts ++ X) line = POk (Some q, Some nx) (mkPst L line' byte')
           /\ comp_values (px_src cx) (pa_comps q) = Some (w :: map (fun x => seg_value (snd x)) t)
           /\ pa_absolute q = pa_absolute q0 /\ pa_parents q = pa_parents q0
           /\ pa_explicit q = (match kd with CThisKeyword => true | _ => pa_explicit q0 end)
           /\ pa_root q = (if streq w (lit "@root") then true else pa_root q0)
           /\ path_is_local q = (match kd with CLocal => true | _ => false end)
           /\ path_is_simple q = (match kd, t with CIdentifier, [] => true | _, _ => false end)
           /\ fst (pa_span q) = fst (pa_span q0) /\ bnd (px_src cx) (snd (pa_span q)) /\ p0 + blen w <= snd (pa_span q)
           /\ snd (pa_span q) = p0 + blen w + blen (tail_shown t)
           /\ (exists c cs, pa_comps q = c :: cs /\ comp_str (px_src cx) c = Some w).
Proof.
  intros Hk Ht. destruct (tail_good t (p0 + blen w) Ht) as (ts & Hlex & Hhead & Hparse).
  exists ts. split; [exact Hlex|]. split.
  { intros rest Hr. destruct t as [|y t']; [cbn; now apply psep_path|].
    destruct Hhead as (r' & [Hr'|Hr']); [discriminate|..]; rewrite Hr'; cbn [app]; eexists _, _; (split; [reflexivity|]); cbn; tauto. }
  intros cx q0 X nx L line line' Hc Hat Hnx Hpar.
  set (comp := mkComp kd (p0, p0 + blen w) None).
  assert (Hcs : comp_str (px_src cx) comp = Some w) by (unfold comp_str; cbn; apply at_sl; [now apply at_l in Hat|reflexivity]).
  assert (Hcv : comp_value (px_src cx) comp = Some w) by exact Hcs.
  apply at_r in Hat.
  set (q1 := path_set_end (p0 + blen w) q0).
  set (q2 := if streq w (lit "@root") then path_set_root true q1 else q1).
  set (q3 := if comp_is_explicit comp then path_set_explicit true q2 else q2).
  destruct (Hparse cx (S (length (ts ++ X))) (path_add comp q3) X nx L line line' p0 Hat Hnx) as (q & byte' & cs & E & Hqc & Hqv & Hsame & Hnil & Hsp & Hend).
  { rewrite app_length. cbn. lia. }
  assert (Hq3 : pa_comps q3 = [] /\ pa_parents q3 = pa_parents q0 /\ pa_absolute q3 = pa_absolute q0
                /\ pa_span q3 = (fst (pa_span q0), p0 + blen w)
                /\ pa_explicit q3 = (match kd with CThisKeyword => true | _ => pa_explicit q0 end)
                /\ pa_root q3 = (if streq w (lit "@root") then true else pa_root q0)).
  { subst q3 q2 q1. cbn in Hk. destruct (streq w (lit "@root")); destruct Hk as [[= <- <-]|[[= <- <-]|[[= <- <-]|[]]]]; cbn; auto 10. }
  destruct Hq3 as (Q1 & Q2 & Q3 & Q4 & Q5 & Q6).
  assert (Hqc' : pa_comps q = comp :: cs) by (rewrite Hqc; cbn; now rewrite Q1).
  exists q, byte'. split.
  { apply (path_first_run cx q0 k (Tok (TParam k) p0 (p0 + blen w)) (ts ++ X) line comp (streq w (lit "@root")) q (Some nx) (mkPst L line' byte')).
    - exact Hc.
    - intro st. cbn in Hk. destruct Hk as [[= <- <-]|[[= <- <-]|[[= <- <-]|[]]]]; reflexivity.
    - unfold comp_is_root. now rewrite Hcs.
    - cbn in Hk. destruct Hk as [[= <- <-]|[[= <- <-]|[[= <- <-]|[]]]]; (destruct Hpar as [Hp0|Hp0]; [rewrite Hp0; split; reflexivity|]); first [discriminate Hp0|split; reflexivity].
    - assert (Hw : negb (comp_is_dot_slash comp) = true) by (cbn in Hk; destruct Hk as [[= <- <-]|[[= <- <-]|[[= <- <-]|[]]]]; reflexivity).
      rewrite Hw. exact E.
    - rewrite Hqc'. discriminate. }
  destruct Hsame as (S1 & S2 & S3 & S4 & S5). cbn in S1, S2, S3, S4, S5.
  split; [|split; [|split; [|split; [|split; [|split; [|split; [|split; [|split; [|split; [|split]]]]]]]]]].
  - rewrite Hqc'. cbn [comp_values]. rewrite Hcv, Hqv. reflexivity.
  - congruence.
  - congruence.
  - congruence.
  - congruence.
  - unfold path_is_local. rewrite Hqc'. subst comp. unfold comp_is_local. cbn.
    cbn in Hk. destruct Hk as [[= <- <-]|[[= <- <-]|[[= <- <-]|[]]]]; reflexivity.
  - unfold path_is_simple. rewrite Hqc'. destruct t as [|y t'].
    + cbn in Hqv. assert (cs = []) as ->. { destruct cs as [|c0 cs0]; [reflexivity|]. cbn in Hqv. destruct (comp_value (px_src cx) c0); [|discriminate]. destruct (comp_values (px_src cx) cs0); discriminate. }
      unfold comp_is_identifier. cbn. cbn in Hk. destruct Hk as [[= <- <-]|[[= <- <-]|[[= <- <-]|[]]]]; reflexivity.
    + destruct cs as [|c0 cs0]; [cbn in Hqv; discriminate|]. cbn in Hk. destruct Hk as [[= <- <-]|[[= <- <-]|[[= <- <-]|[]]]]; reflexivity.
  - rewrite S5, Q4. reflexivity.
  - destruct t as [|y t'].
    + rewrite (Hnil eq_refl). cbn. rewrite Q4. cbn. eapply at_bnd. exact Hat.
    + apply Hsp. discriminate.
  - destruct t as [|y t'].
    + rewrite (Hnil eq_refl). cbn. rewrite Q4. cbn. lia.
    + apply Hsp. discriminate.
  - destruct t as [|y t'].
    + rewrite (Hnil eq_refl). cbn. rewrite Q4. cbn. lia.
    + apply Hend. discriminate.
  - exists comp, cs. split; [exact Hqc'|exact Hcs].
Qed.

(** ** The whole path *)
Definition start_kind (k : tparam) : Prop := In k [KIdent; KThis; KLocalIdent; KThisDotSlash; KParentRef].
Definition path_bracket (h : head) (t : tail) : bool := ends_in_literal h t.
Lemma bracket_last h t : ends_in_literal h t = match t with [] => (match h with HdDot s => seg_literal s | _ => false end) | _ => last_literal t end.
Proof.
  unfold ends_in_literal, last_literal. destruct t as [|x t]; [reflexivity|].
  destruct (rev (x :: t)) as [|y l] eqn:E; [|reflexivity].
  apply (f_equal (@length _)) in E. rewrite rev_length in E. discriminate.
Qed.
Lemma last_or h t : (match h with HdDot _ => False | _ => True end) -> ends_in_literal h t = false -> last_literal t = false.
Proof. rewrite bracket_last. destruct t; [|auto]. intros _ _. reflexivity. Qed.

Lemma slice_between src a b u : at_ src a u -> b = a + blen u -> slice src a b = Some u.
Proof. intros H ->. now apply at_slice. Qed.

Definition path_out (cx : pctx) (h : head) (t : tail) (p : nat) (r : pres pst (option path * option token)) (nx : token) (L : list token) (line : nat) : Prop :=
  exists q byte', r = POk (Some q, Some nx) (mkPst L line byte') /\ path_is (px_src cx) q h t /\ fst (pa_span q) = p
    /\ (forall w, h = HdName w -> exists c cs, pa_comps q = c :: cs /\ comp_str (px_src cx) c = Some w).
(** the string of a path from the facts about its span *)
Lemma shown_prefix h t : exists r, path_text h t = path_shown h t ++ r.
Proof.
  destruct (tail_shown_prefix t) as (r & E). unfold path_text, path_shown. destruct h as [w| |s|k w|w|w].
  3: destruct t as [|y t]; [destruct (seg_shown_prefix s) as (r' & E'); exists r'; cbn [head_text tail_text]; rewrite E', app_nil_r, <- app_assoc; reflexivity|].
  all: exists r; destruct t; rewrite E, <- app_assoc; reflexivity.
Qed.
Lemma shown_plain h t : ends_in_literal h t = false -> path_shown h t = path_text h t.
Proof.
  rewrite bracket_last. unfold path_text, path_shown. destruct t as [|y t].
  - intros H. destruct h as [w| |s|k w|w|w]; try reflexivity. rewrite (seg_shown_plain s H). cbn [head_text tail_text]. now rewrite app_nil_r.
  - intros H. rewrite (tail_shown_plain _ H). destruct h as [w| |s|k w|w|w]; reflexivity.
Qed.
Lemma path_str_good src q p h t : at_ src p (path_text h t) -> fst (pa_span q) = p ->
  snd (pa_span q) = p + blen (path_shown h t) -> path_str src q = Some (path_shown h t).
Proof.
  intros Hat Hf He. unfold path_str, sl. rewrite Hf, He. destruct (shown_prefix h t) as (r & E). rewrite E in Hat. apply at_l in Hat. exact (at_slice _ _ _ Hat).
Qed.

(** a head of one token *)
Lemma path_one h k kd w t p : In (k, kd) head_kinds -> head_text h = w -> w <> [] -> tail_ok t ->
  (forall rest, pathsep rest -> next_token MParam (w ++ rest) (TParam k) (length w)) ->
  head_parts h = [w] -> (match h with HdDot _ | HdUp _ _ | HdAbs _ => False | _ => True end) ->
  match h with HdThis => true | _ => false end = match kd with CThisKeyword => true | _ => false end ->
  streq w (lit "@root") = match h with HdLocal w => streq w (lit "root") | _ => false end ->
  match h with HdLocal _ => true | _ => false end = match kd with CLocal => true | _ => false end ->
  match h with HdName _ => true | _ => false end = match kd with CIdentifier => true | _ => false end ->
  exists e ts,
    (forall rest L, psep rest -> tokenizes MParam (p + blen (path_text h t)) rest L ->
       tokenizes MParam p (path_text h t ++ rest) (Tok (TParam k) p e :: ts ++ L))
    /\ forall cx X nx L line line' byte, at_ (px_src cx) p (path_text h t) -> lands X line nx L line' ->
         path_out cx h t p (path_parse cx k (Tok (TParam k) p e) (mkPst (ts ++ X) line byte)) nx L line'.
Proof.
  intros Hk Hw Hne Ht Hnext Hparts Hnot Hthis Hroot Hlocal Hname.
  destruct (first_good k kd w p t Hk Ht) as (ts & Hlex & Hsep & Hparse).
  exists (p + blen w), ts. unfold path_text. rewrite Hw. split.
  - intros rest L Hr HL. rewrite <- app_assoc. apply tkz_cons; [apply Hnext, Hsep, Hr|].
    rewrite blen_app, Nat.add_assoc in HL.
    replace (next_mode (TParam k)) with MParam by (cbn in Hk; destruct Hk as [[= <- <-]|[[= <- <-]|[[= <- <-]|[]]]]; reflexivity).
    now apply Hlex.
  - intros cx X nx L line line' byte Hat Hnx.
    destruct (Hparse cx (path_new (tspan (Tok (TParam k) p (p + blen w))) (line_range (mkPst (ts ++ X) line byte))) X nx L line line' eq_refl Hat Hnx (or_introl eq_refl))
      as (q & byte' & E & F1 & F2 & F3 & F4 & F5 & F6 & F7 & F8 & F9 & F10 & F11 & F12).
    exists q, byte'. split; [|split; [|split]].
    + unfold path_parse. change (tspan (Tok (TParam k) p (p + blen w))) with (p, p + blen w). rewrite (at_sl _ p w) by (try reflexivity; now apply at_l in Hat). cbn [pslice].
      assert (Hpl : path_loop cx (path_new (tspan (Tok (TParam k) p (p + blen w))) (line_range (mkPst (ts ++ X) line byte)))
                      (Some (Tok (TParam k) p (p + blen w))) (ts ++ X) line byte = POk (Some q, Some nx) (mkPst L line' byte')).
      { rewrite path_loop_eq. cbn [t_kind].
        replace (is_path_component k) with true by (cbn in Hk; destruct Hk as [[= <- <-]|[[= <- <-]|[[= <- <-]|[]]]]; reflexivity).
        exact E. }
      cbn in Hk; destruct Hk as [[= <- <-]|[[= <- <-]|[[= <- <-]|[]]]]; exact Hpl.
    + cbn [pa_absolute pa_parents pa_explicit pa_root pa_span path_new fst tspan] in *. unfold path_is. split; [rewrite F1; unfold path_parts; now rewrite Hparts|].
      split; [rewrite F2; destruct h; (reflexivity || contradiction)|]. split; [rewrite F3; destruct h; (reflexivity || contradiction)|].
      split; [rewrite F4; destruct h; destruct kd; try contradiction; try discriminate; reflexivity|].
      split; [rewrite F5, Hroot; clear; destruct h as [w0| |s0|k0 w0|w0|w0]; try reflexivity; destruct (streq w0 (lit "root")); reflexivity|].
      split; [rewrite F6; now rewrite <- Hlocal|].
      split; [rewrite F7; destruct h; destruct kd; try contradiction; try discriminate; destruct t; reflexivity|].
      apply (path_str_good _ _ p); [unfold path_text; now rewrite Hw|exact F8|].
      replace (path_shown h t) with (w ++ tail_shown t) by (subst w; clear -Hnot; destruct h; try contradiction; destruct t; reflexivity). rewrite blen_app, Nat.add_assoc. exact F11.
    + exact F8.
    + intros w0 ->. cbn in Hw. subst w0. exact F12.
Qed.

(** [..]/[..]/name *)
Fixpoint up_toks (k p : nat) : list token :=
  match k with 0 => [] | S k => Tok (TParam KParentRef) p (p + 3) :: up_toks k (p + 3) end.
Lemma ups_lex k : forall p rest L, tokenizes MParam (p + blen (ups k)) rest L -> tokenizes MParam p (ups k ++ rest) (up_toks k p ++ L).
Proof.
  induction k as [|k IH]; intros p rest L HL; [cbn in *; now rewrite Nat.add_0_r in HL|].
  cbn [ups up_toks]. rewrite <- app_assoc. cbn [app]. change (p + 3) with (p + blen (lit "../")).
  apply tkz_cons; [apply next_parent|]. cbn [next_mode]. apply IH.
  cbn [ups] in HL. rewrite blen_app in HL. now rewrite <- Nat.add_assoc.
Qed.
Lemma parents_good checked k : forall n p nx L, n + k <= 255 -> (match t_kind nx with TParam KParentRef => False | _ => True end) ->
  parents_go checked (N.of_nat n) (up_toks k p ++ nx :: L) = Some (N.of_nat (n + k), Some nx, L).
Proof.
  induction k as [|k IH]; intros n p nx L Hle Hnx.
  - cbn [up_toks app parents_go]. rewrite Nat.add_0_r. destruct (t_kind nx) as [| | | |[]| | | |]; try reflexivity. contradiction.
  - cbn [up_toks app parents_go t_kind]. 
    assert (H255 : (N.of_nat n =? 255)%N = false).
    { apply N.eqb_neq. intro Hx. apply (f_equal N.to_nat) in Hx. rewrite Nat2N.id in Hx. change (N.to_nat 255) with 255 in Hx. lia. }
    rewrite H255.
    replace (N.of_nat n + 1)%N with (N.of_nat (S n)) by (rewrite Nat2N.inj_succ; symmetry; apply N.add_1_r). rewrite IH by (lia || exact Hnx). now rewrite Nat.add_succ_comm.
Qed.

Lemma path_up k w t p : 1 <= k <= 255 -> name_ok w -> tail_ok t ->
  exists e ts,
    (forall rest L, psep rest -> tokenizes MParam (p + blen (path_text (HdUp k w) t)) rest L ->
       tokenizes MParam p (path_text (HdUp k w) t ++ rest) (Tok (TParam KParentRef) p e :: ts ++ L))
    /\ forall cx X nx L line line' byte, at_ (px_src cx) p (path_text (HdUp k w) t) -> lands X line nx L line' ->
         path_out cx (HdUp k w) t p (path_parse cx KParentRef (Tok (TParam KParentRef) p e) (mkPst (ts ++ X) line byte)) nx L line'.
Proof.
  intros Hk Hw Ht. destruct k as [|k]; [lia|]. set (p1 := p + blen (ups (S k))).
  destruct (first_good KIdent CIdentifier w p1 t (or_introl eq_refl) Ht) as (ts & Hlex & Hsep & Hparse).
  exists (p + 3), (up_toks k (p + 3) ++ Tok (TParam KIdent) p1 (p1 + blen w) :: ts). split.
  - intros rest L Hr HL. unfold path_text. cbn [head_text]. rewrite <- !app_assoc.
    change (Tok (TParam KParentRef) p (p + 3) :: up_toks k (p + 3) ++ (Tok (TParam KIdent) p1 (p1 + blen w) :: ts) ++ L)
      with (up_toks (S k) p ++ (Tok (TParam KIdent) p1 (p1 + blen w) :: ts ++ L)).
    apply ups_lex. fold p1. apply tkz_cons; [apply next_name; [exact Hw|apply Hsep, Hr]|]. cbn [next_mode].
    apply Hlex; [exact Hr|]. unfold path_text in HL. cbn [head_text] in HL. rewrite !blen_app in HL. fold p1 in HL.
    subst p1. replace (p + blen (ups (S k)) + blen w + blen (tail_text t)) with (p + (blen (ups (S k)) + blen w + blen (tail_text t))) by lia. exact HL.
  - intros cx X nx L line line' byte Hat Hnx. unfold path_text in Hat. cbn [head_text] in Hat. rewrite <- app_assoc in Hat.
    pose proof (at_r _ _ _ _ Hat) as Hat1. fold p1 in Hat1.
    set (q0 := path_set_parents (N.of_nat (S k)) (path_new (p, p + 3) (line_range (mkPst ((up_toks k (p + 3) ++ Tok (TParam KIdent) p1 (p1 + blen w) :: ts) ++ X) line byte)))).
    destruct (Hparse cx q0 X nx L line line' eq_refl Hat1 Hnx (or_intror eq_refl))
      as (q & byte' & E & F1 & F2 & F3 & F4 & F5 & F6 & F7 & F8 & F9 & F10 & F11 & F12).
    exists q, byte'. split; [|split; [|split]].
    + unfold path_parse. change (tspan (Tok (TParam KParentRef) p (p + 3))) with (p, p + 3).
      rewrite (at_sl _ p (lit "../")); [|cbn [ups] in Hat; rewrite <- app_assoc in Hat; now apply at_l in Hat|reflexivity].
      cbn [pslice p_toks p_line p_byte]. rewrite <- app_assoc. cbn [app].
      rewrite (parents_good _ k 1 (p + 3) (Tok (TParam KIdent) p1 (p1 + blen w)) (ts ++ X)) by (lia || exact I).
      rewrite path_loop_eq. cbn [t_kind is_path_component]. subst q0. rewrite <- app_assoc in E. exact E.
    + cbn [pa_absolute pa_parents pa_explicit pa_root pa_span path_new path_set_parents q0 fst] in *. unfold path_is.
      split; [exact F1|]. split; [exact F2|]. split; [exact F3|]. split; [exact F4|].
      split; [rewrite F5; destruct (streq w (lit "@root")) eqn:Es; [|reflexivity]|].
      { exfalso. apply streq_eq in Es. subst w. destruct Hw as (_ & Hw & _). vm_compute in Hw. discriminate. }
      split; [exact F6|]. split; [exact F7|].
      apply (path_str_good _ _ p); [unfold path_text; cbn [head_text]; now rewrite <- app_assoc|exact F8|].
      rewrite F11. subst p1. change (path_shown (HdUp (S k) w) t) with ((ups (S k) ++ w) ++ tail_shown t). rewrite !blen_app. lia.
    + exact F8.
    + discriminate.
Qed.

(** [./segment] *)
Lemma path_dot s t p : seg_ok s -> tail_ok t ->
  exists e ts,
    (forall rest L, psep rest -> tokenizes MParam (p + blen (path_text (HdDot s) t)) rest L ->
       tokenizes MParam p (path_text (HdDot s) t ++ rest) (Tok (TParam KThisDotSlash) p e :: ts ++ L))
    /\ forall cx X nx L line line' byte, at_ (px_src cx) p (path_text (HdDot s) t) -> lands X line nx L line' ->
         path_out cx (HdDot s) t p (path_parse cx KThisDotSlash (Tok (TParam KThisDotSlash) p e) (mkPst (ts ++ X) line byte)) nx L line'.
Proof.
  intros Hs Ht.
  destruct (seg_good s (p + 2) Hs) as (ts1 & Hlex1 & Hlen1 & _ & Hparse1).
  destruct (tail_good t (p + 2 + blen (seg_text s)) Ht) as (ts2 & Hlex2 & Hhead & Hparse2).
  exists (p + 2), (ts1 ++ ts2). split.
  - intros rest L Hr HL. unfold path_text. cbn [head_text]. rewrite <- !app_assoc. change (p + 2) with (p + blen (lit "./")) at 1.
    apply tkz_cons; [apply next_dot_slash|]. cbn [next_mode]. change (p + blen (lit "./")) with (p + 2). apply Hlex1.
    + destruct t as [|y t']; [cbn; now apply psep_path|]. destruct Hhead as (r' & [Hr'|Hr']); [discriminate|..]; rewrite Hr'; cbn [app]; eexists _, _; (split; [reflexivity|]); cbn; tauto.
    + apply Hlex2; [exact Hr|]. unfold path_text in HL. cbn [head_text] in HL. rewrite !blen_app in HL. change (blen (lit "./")) with 2 in HL.
      replace (p + 2 + blen (seg_text s) + blen (tail_text t)) with (p + (2 + blen (seg_text s) + blen (tail_text t))) by lia. exact HL.
  - intros cx X nx L line line' byte Hat Hnx. pose proof Hat as Hat0. unfold path_text in Hat. cbn [head_text] in Hat. rewrite <- app_assoc in Hat.
    pose proof (at_l _ _ _ _ Hat) as Hh. pose proof (at_r _ _ _ _ Hat) as Hat1. change (p + blen (lit "./")) with (p + 2) in Hat1.
    pose proof (at_l _ _ _ _ Hat1) as Hat2. pose proof (at_r _ _ _ _ Hat1) as Hat3.
    set (st0 := mkPst ((ts1 ++ ts2) ++ X) line byte).
    set (q0 := path_new (p, p + 2) (line_range st0)).
    set (c0 := mkComp CThisDotSlash (p, p + 2) None).
    set (q1 := path_add c0 (path_set_explicit true (path_set_end (p + 2) q0))).
    destruct (Hparse1 cx (length ((ts1 ++ ts2) ++ X)) q1 (ts2 ++ X) line p Hat2) as (comp & e & b1 & E1 & Hv & He).
    destruct (Hparse2 cx (length ((ts1 ++ ts2) ++ X)) (path_add comp (path_set_end e q1)) X nx L line line' b1 Hat3 Hnx)
      as (q & b2 & cs & E2 & Hcs & Hvs & Hsame & Hnil & Hspan & Hend).
    { rewrite !app_length. cbn. lia. }
    destruct Hsame as (S1 & S2 & S3 & S4 & S5). cbn in S1, S2, S3, S4, S5.
    assert (Hqc : pa_comps q = c0 :: comp :: cs) by (rewrite Hcs; reflexivity).
    assert (Hc0 : comp_str (px_src cx) c0 = Some (lit "./")) by (unfold comp_str; cbn [cm_span c0]; now apply at_sl).
    exists q, b2. split; [|split; [|split]].
    + unfold path_parse. change (tspan (Tok (TParam KThisDotSlash) p (p + 2))) with (p, p + 2). rewrite (at_sl _ p (lit "./") (p + 2) Hh eq_refl). cbn [pslice].
      change (p_toks (mkPst ((ts1 ++ ts2) ++ X) line byte)) with ((ts1 ++ ts2) ++ X). cbn [p_line p_byte].
      rewrite path_loop_eq. cbn [t_kind is_path_component].
      apply (path_first_run cx _ KThisDotSlash (Tok (TParam KThisDotSlash) p (p + 2)) ((ts1 ++ ts2) ++ X) line c0 false q (Some nx) (mkPst L line' b2)).
      * reflexivity.
      * intro st. reflexivity.
      * unfold comp_is_root. now rewrite Hc0.
      * split; reflexivity.
      * cbn [comp_is_dot_slash comp_is_explicit cm_kind c0 negb t_end t_start]. fold st0. fold q0. fold q1.
        rewrite <- E2. rewrite <- E1. rewrite <- app_assoc. reflexivity.
      * rewrite Hqc. discriminate.
    + unfold path_is. split; [rewrite Hqc; cbn [comp_values]; unfold comp_value at 1; cbn [cm_value c0]; fold c0; rewrite Hc0, Hv, Hvs; reflexivity|].
      split; [exact S4|]. split; [exact S1|]. split; [exact S2|]. split; [exact S3|].
      split; [unfold path_is_local; now rewrite Hqc|]. split; [unfold path_is_simple; now rewrite Hqc|].
      apply (path_str_good _ _ p); [exact Hat0|exact S5|].
      destruct t as [|y t'].
      * rewrite (Hnil eq_refl). cbn [pa_span path_add path_set_end snd]. subst e. unfold path_shown. rewrite blen_app. change (blen (lit "./")) with 2. lia.
      * rewrite (Hend ltac:(discriminate)). replace (path_shown (HdDot s) (y :: t')) with (lit "./" ++ seg_text s ++ tail_shown (y :: t')) by (unfold path_shown; cbn [head_text]; rewrite <- ?app_assoc; reflexivity).
        rewrite !blen_app. change (blen (lit "./")) with 2. lia.
    + exact S5.
    + discriminate.
Qed.

Lemma path_good h t p : head_ok h -> tail_ok t ->
  exists k e ts, start_kind k
    /\ (forall rest L, psep rest -> tokenizes MParam (p + blen (path_text h t)) rest L ->
         tokenizes MParam p (path_text h t ++ rest) (Tok (TParam k) p e :: ts ++ L))
    /\ forall cx X nx L line line' byte, at_ (px_src cx) p (path_text h t) -> lands X line nx L line' ->
         path_out cx h t p (path_parse cx k (Tok (TParam k) p e) (mkPst (ts ++ X) line byte)) nx L line'.
Proof.
  intros Hh Ht. unfold start_kind. destruct h as [w| |s|k w|w|w]; [..|contradiction].
  - destruct (path_one (HdName w) KIdent CIdentifier w t p) as (e & ts & H); try reflexivity; try exact Ht; try (left; reflexivity).
    + cbn in Hh. destruct Hh as (Hh & _). destruct w; [contradiction|discriminate].
    + intros rest Hr. now apply next_name.
    + destruct (streq w (lit "@root")) eqn:Es; [|reflexivity].
      apply streq_eq in Es. subst w. destruct Hh as (_ & Hw & _). vm_compute in Hw. discriminate.
    + exists KIdent, e, ts. split; [cbn; tauto|exact H].
  - destruct (path_one HdThis KThis CThisKeyword (lit "this") t p) as (e & ts & H); try reflexivity; try exact Ht; try exact I; try discriminate.
    + right. left. reflexivity.
    + intros rest Hr. apply next_word; [left; reflexivity|exact Hr].
    + exists KThis, e, ts. split; [cbn; tauto|exact H].
  - destruct (path_dot s t p Hh Ht) as (e & ts & H). exists KThisDotSlash, e, ts. split; [cbn; tauto|exact H].
  - destruct Hh as [Hk Hw]. destruct (path_up k w t p Hk Hw Ht) as (e & ts & H). exists KParentRef, e, ts. split; [cbn; tauto|exact H].
  - destruct Hh as [H1 H2].
    destruct (path_one (HdLocal w) KLocalIdent CLocal ([64%N] ++ w) t p) as (e & ts & H); try reflexivity; try exact Ht; try exact I; try discriminate.
    + right. right. left. reflexivity.
    + intros rest Hr. now apply next_local.
    + exists KLocalIdent, e, ts. split; [cbn; tauto|exact H].
Qed.

(** [/name] *)
Lemma path_abs w t p : name_ok w -> tail_ok t ->
  exists e ts,
    (forall rest L, psep rest -> tokenizes MParam (p + blen (path_text (HdAbs w) t)) rest L ->
       tokenizes MParam p (path_text (HdAbs w) t ++ rest) (Tok (TParam KPathDelim) p e :: ts ++ L))
    /\ forall cx X nx L line line' byte, at_ (px_src cx) p (path_text (HdAbs w) t) -> lands X line nx L line' ->
         path_out cx (HdAbs w) t p (path_parse cx KPathDelim (Tok (TParam KPathDelim) p e) (mkPst (ts ++ X) line byte)) nx L line'.
Proof.
  intros Hw Ht. set (p1 := p + 1).
  destruct (first_good KIdent CIdentifier w p1 t (or_introl eq_refl) Ht) as (ts & Hlex & Hsep & Hparse).
  exists (p + 1), (Tok (TParam KIdent) p1 (p1 + blen w) :: ts). split.
  - intros rest L Hr HL. unfold path_text. cbn [head_text]. rewrite <- !app_assoc.
    change (p + 1) with (p + blen [47%N]) at 1.
    apply (tkz_cons _ _ [47%N]).
    { destruct (name_head w Hw) as (c & w' & -> & H1 & H2 & _). cbn [length app]. apply (next_delim true c); assumption. }
    cbn [next_mode app]. change (p + blen [47%N]) with p1.
    apply tkz_cons; [apply next_name; [exact Hw|apply Hsep, Hr]|]. cbn [next_mode].
    apply Hlex; [exact Hr|]. unfold path_text in HL. cbn [head_text] in HL. rewrite !blen_app in HL.
    subst p1. change (blen [47%N]) with 1 in HL. replace (p + 1 + blen w + blen (tail_text t)) with (p + (1 + blen w + blen (tail_text t))) by lia. exact HL.
  - intros cx X nx L line line' byte Hat Hnx. unfold path_text in Hat. cbn [head_text] in Hat. rewrite <- app_assoc in Hat.
    pose proof (at_r _ _ _ _ Hat) as Hat1. change (p + blen [47%N]) with p1 in Hat1.
    set (q0 := path_set_absolute true (path_new (p, p + 1) (line_range (mkPst ((Tok (TParam KIdent) p1 (p1 + blen w) :: ts) ++ X) line byte)))).
    destruct (Hparse cx q0 X nx L line line' eq_refl Hat1 Hnx (or_intror eq_refl))
      as (q & byte' & E & F1 & F2 & F3 & F4 & F5 & F6 & F7 & F8 & F9 & F10 & F11 & F12).
    exists q, byte'. split; [|split; [|split]].
    + unfold path_parse. change (tspan (Tok (TParam KPathDelim) p (p + 1))) with (p, p + 1).
      rewrite (at_sl _ p [47%N]); [|now apply at_l in Hat|reflexivity].
      cbn [pslice pnext p_toks p_line p_byte app]. replace (streq [47%N] [47%N]) with true by reflexivity.
      rewrite path_loop_eq. cbn [t_kind is_path_component]. subst q0. exact E.
    + cbn [pa_absolute pa_parents pa_explicit pa_root pa_span path_new path_set_absolute q0 fst] in *. unfold path_is.
      split; [exact F1|]. split; [exact F2|]. split; [exact F3|]. split; [exact F4|].
      split; [rewrite F5; destruct (streq w (lit "@root")) eqn:Es; [|reflexivity]|].
      { exfalso. apply streq_eq in Es. subst w. destruct Hw as (_ & Hw & _). vm_compute in Hw. discriminate. }
      split; [exact F6|]. split; [exact F7|].
      apply (path_str_good _ _ p); [unfold path_text; cbn [head_text]; now rewrite <- app_assoc|exact F8|].
      rewrite F11. subst p1. change (path_shown (HdAbs w) t) with (([47%N] ++ w) ++ tail_shown t). rewrite !blen_app. change (blen [47%N]) with 1. lia.
    + exact F8.
    + discriminate.
Qed.
Definition arg_kind (k : tparam) : Prop := start_kind k \/ k = KPathDelim.
Lemma arg_path_good h t p : arg_head_ok h -> tail_ok t ->
  exists k e ts, arg_kind k
    /\ (forall rest L, psep rest -> tokenizes MParam (p + blen (path_text h t)) rest L ->
         tokenizes MParam p (path_text h t ++ rest) (Tok (TParam k) p e :: ts ++ L))
    /\ forall cx X nx L line line' byte, at_ (px_src cx) p (path_text h t) -> lands X line nx L line' ->
         path_out cx h t p (path_parse cx k (Tok (TParam k) p e) (mkPst (ts ++ X) line byte)) nx L line'.
Proof.
  intros [Hh|(w & -> & Hw)] Ht.
  - destruct (path_good h t p Hh Ht) as (k & e & ts & Hk & H). exists k, e, ts. split; [now left|exact H].
  - destruct (path_abs w t p Hw Ht) as (e & ts & H). exists KPathDelim, e, ts. split; [now right|exact H].
Qed.
