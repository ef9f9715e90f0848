(** * BadEvents: the parser and the linter on sources made of good and bad tags (Spec_Bad). *)
From Coq Require Import Lia String.
From Verif Require Import Str Regex Lexer Json Ast ErrInfo Parser StrFacts RegexFacts Spec_Lexer LexerFacts ParserFacts CallFacts ArgFacts LeafFacts TreeFacts BlockFacts DocFacts Spec_Ast Spec_Source
  SynLex SynStr SynPath SynCall SynTag SynDoc SynItem SynBlock Spec_Bad BadFacts BadParse BadParse2 BadTag WhereFacts.
Open Scope nat_scope. Open Scope list_scope.
Notation at_ := SynPath.at_.
Notation nontext := (fun k => negb (is_text k)).

(** ** One event *)
Definition sound (src : str) (X : list token) : Prop := good src X /\ chain X /\ slashed src X.
(** the line counter, [line] before [T] is read, is [line'] when [L] is left *)
Definition passed (T L : list token) (line line' : nat) : Prop := line' <= line + nlc T /\ (clean (T ++ L) -> line' = line + nlc T).
(** the error for [m], at a byte of the piece read as [T] *)
Definition rejected {A} (cx : pctx) (m : fault) (T L : list token) (l0 : nat) (stk : list (str * block)) (r : pres fstate A) : Prop :=
  r = PPanic PanErrorInfo
  \/ exists pre inner line byte e, T = pre ++ inner /\ Forall nonblock inner /\ r = PErr e (mkF (mkPst (inner ++ L) line byte) stk None)
       /\ se_kind e = fst m /\ err_info (pe_width (px_env cx)) (px_file cx) (px_src cx) line byte (snd m) = Some (se_info e)
       /\ pos (px_src cx) (T ++ L) <= byte < pos (px_src cx) L /\ l0 <= line <= l0 + nlc T.
Lemma err_info_byte w file s line byte notes i : err_info w file s line byte notes = Some i -> byte < blen s.
Proof.
  unfold err_info. destruct (find_prev s byte) as [prev|]; [|discriminate]. destruct (find_next s _ byte) as [next|]; [|discriminate]. cbv zeta.
  destruct (slice s _ (match next with _ => _ end)); [|discriminate].
  set (q := match prev with Some o => o + 1 | None => 0 end). destruct (slice s q (q + (byte - q + 1))) eqn:E; [|discriminate]. intros _.
  apply slice_bnd in E. destruct E as (_ & E & _). apply bnd_le in E. lia.
Qed.
Lemma rejected_intro {A} cx m T L l0 stk line byte :
  pos (px_src cx) (T ++ L) <= byte -> byte < pos (px_src cx) L \/ L = [] -> l0 <= line <= l0 + nlc T ->
  @rejected A cx m T L l0 stk (lift (perr_n cx (fst m) (snd m) (mkPst L line byte)) stk None).
Proof.
  intros Hb Hb2 Hl. unfold perr_n. cbn [p_line p_byte]. destruct (err_info _ _ _ _ _ _) as [i|] eqn:Ei; [right|now left].
  exists T, [], line, byte. eexists. split; [now rewrite app_nil_r|]. split; [constructor|]. split; [reflexivity|]. split; [reflexivity|]. split; [exact Ei|]. split; [|exact Hl]. split; [exact Hb|]. apply err_info_byte in Ei. destruct Hb2 as [Hb2| ->]; [exact Hb2|exact Ei].
Qed.
(** while the call of a tag is read *)
Lemma call_there cx t T' L line byte : good (px_src cx) ((t :: T') ++ L) ->
  calm cx (t :: T' ++ L) (t_start t) line (fun _ st => there cx (t :: T' ++ L) (t_start t) line st) (call_parse cx (tspan t) (mkPst (T' ++ L) line byte)).
Proof. intros Hg. apply call_parse_calm; [exact Hg|]. exists []. cbn [app pos p_toks p_line nlc]. split; [reflexivity|]. lia. Qed.
Lemma there_bounds cx t T' inner L line st : good (px_src cx) ((t :: T') ++ L) -> there cx (t :: T' ++ L) (t_start t) line st -> p_toks st = inner ++ L ->
  (exists pre, t :: T' = pre ++ inner) /\ pos (px_src cx) ((t :: T') ++ L) <= p_byte st /\ (p_byte st < pos (px_src cx) L \/ L = []) /\ line <= p_line st <= line + nlc (t :: T').
Proof.
  intros Hg ((pre & E & Hb & Hl) & Hst) Et. rewrite Et in E, Hb, Hst.
  assert (Ep : t :: T' = pre ++ inner) by (apply (app_inv_tail L); rewrite <- app_assoc; exact E).
  split; [now exists pre|]. rewrite Ep in Hg. rewrite <- app_assoc in Hg. apply good_app in Hg. destruct Hg as [Hg _]. apply good_app in Hg. destruct Hg as [_ Hg].
  split; [cbn [app pos]; lia|]. split; [|rewrite Ep, nlc_app; lia]. destruct Hst as [Hst|Hst]; [left; lia|right]. apply app_eq_nil in Hst. apply Hst.
Qed.
Lemma refuses_where cx k t T' L line byte : good (px_src cx) ((t :: T') ++ L) -> let r := call_parse cx (tspan t) (mkPst (T' ++ L) line byte) in
  refuses cx k L r -> r = PPanic PanErrorInfo
  \/ exists pre inner l b e, t :: T' = pre ++ inner /\ Forall nonblock inner /\ r = PErr e (mkPst (inner ++ L) l b)
       /\ se_kind e = k /\ err_info (pe_width (px_env cx)) (px_file cx) (px_src cx) l b [] = Some (se_info e)
       /\ pos (px_src cx) ((t :: T') ++ L) <= b < pos (px_src cx) L /\ line <= l <= line + nlc (t :: T').
Proof.
  intros Hg r (inner & l & b & Hin & Er). pose proof (call_there cx t T' L line byte Hg) as Hc. fold r in Hc.
  unfold perr_n in Er. cbn [p_line p_byte] in Er. destruct (err_info _ _ _ _ _ _) as [i|] eqn:Ei; [right|now left].
  rewrite Er in Hc. cbn in Hc. destruct (there_bounds cx t T' inner L line _ Hg Hc eq_refl) as ((pre & Ep) & Hb & Hb2 & Hl).
  exists pre, inner, l, b. eexists. split; [exact Ep|]. split; [exact Hin|]. split; [exact Er|]. split; [reflexivity|]. split; [exact Ei|]. split; [|exact Hl].
  split; [exact Hb|]. apply err_info_byte in Ei. destruct Hb2 as [Hb2| ->]; [exact Hb2|exact Ei].
Qed.
Lemma refuses_rejected {A B} cx k t T' L line byte stk (g : _ -> pst -> pres pst A) (h : A -> fstate -> pres fstate B)   :
  good (px_src cx) ((t :: T') ++ L) -> refuses cx k L (call_parse cx (tspan t) (mkPst (T' ++ L) line byte)) ->
  rejected cx (k, []) (t :: T') L line stk (pbind (lift (pbind (call_parse cx (tspan t) (mkPst (T' ++ L) line byte)) g) stk None) h).
Proof.
  intros Hg H. destruct (refuses_where cx k t T' L line byte Hg H) as [-> |(pre & inner & l & b & e & H1 & H2 & -> & H3 & H4 & H5 & H6)]; [now left|right].
  exists pre, inner, l, b, e. split; [exact H1|]. split; [exact H2|]. split; [reflexivity|]. repeat (split; [assumption|]). assumption.
Qed.
Lemma call_passed cx t T' L line byte cc l' b' : good (px_src cx) ((t :: T') ++ L) -> is_newline (t_kind t) = false ->
  call_parse cx (tspan t) (mkPst (T' ++ L) line byte) = POk cc (mkPst L l' b') ->
  passed (t :: T') L line l' /\ line <= l' <= line + nlc (t :: T') /\ pos (px_src cx) ((t :: T') ++ L) <= b' /\ (b' < pos (px_src cx) L \/ L = [])
  /\ cinv (px_src cx) (t_start t) L cc.
Proof.
  intros Hg Hn E. pose proof Hg as Hg'. change ((t :: T') ++ L) with (t :: T' ++ L) in Hg'. apply ParserFacts.good_cons in Hg'. destruct Hg' as (Ht & Hg' & Hp).
  pose proof (call_there cx t T' L line byte Hg) as Hc. rewrite E in Hc. cbn in Hc.
  destruct (there_bounds cx t T' [] L line _ Hg Hc eq_refl) as (_ & Hb & Hb2 & Hl). cbn [p_byte p_line] in *.
  assert (Hlt : t_start t < t_end t) by apply Ht.
  pose proof (call_parse_post cx (t_start t) (tspan t) (mkPst (T' ++ L) line byte)) as Hpost. cbv zeta in Hpost. cbn [p_toks p_line] in Hpost.
  specialize (Hpost Hg' (sp_in_tok _ _ _ _ Ht (le_n _) (Nat.eq_le_incl _ _ (eq_sym Hp))) (Nat.le_trans _ _ _ (Nat.lt_le_incl _ _ Hlt) (Nat.eq_le_incl _ _ (eq_sym Hp)))). rewrite E in Hpost. cbn [ppost] in Hpost.
  destruct Hpost as ((pre & Ep & P1 & P2) & Hci & _). cbn [p_toks p_line] in *. apply app_inv_tail in Ep. subst pre.
  assert (En : nlc (t :: T') = nlc T') by (cbn [nlc]; unfold nl1; now rewrite Hn).
  split; [split; [lia|]|]; [|repeat (split; [first [exact Hb2|exact Hb|lia]|]); exact Hci]. rewrite En. intros Hcl. apply P2. apply clean_app in Hcl. destruct Hcl as [Hcl _]. apply (clean_app [t] T') in Hcl. apply Hcl.
Qed.
(** the parser is about to read [L] *)
Definition fs_at (L : list token) (stk : list (str * block)) (line : nat) (fs : fstate) : Prop :=
  exists byte, fs = mkF (mkPst L line byte) stk None \/ fs = mkF (mkPst (tl L) line byte) stk (hd_error L).
Lemma ok_passed cx t T' L line byte f stk n fs stk' line' : sound (px_src cx) ((t :: T') ++ L) -> 2 * length (T' ++ L) + 2 <= S f ->
  advance (S f) cx t (mkF (mkPst (T' ++ L) line byte) stk None) = POk (Some n) fs -> fs_at L stk' line' fs -> passed (t :: T') L line line'.
Proof.
  intros (Hg & Hc & Hs) Hf E (b & Hfs). destruct (advance_post (S f)) as [Hadv _].
  specialize (Hadv cx ((t :: T') ++ L) line t (mkF (mkPst (T' ++ L) line byte) stk None) Hf eq_refl Hg Hc Hs).
  assert (Ha : TreeFacts.at_ ((t :: T') ++ L) line (t :: T' ++ L) line) by (exists []; cbn [nlc app]; split; [reflexivity|]; split; [lia|intros; lia]).
  specialize (Hadv Ha). rewrite E in Hadv. cbn [ppost adv_res] in Hadv. destruct Hadv as ((pre & Ep & P1 & P2) & _).
  assert (Er : frest fs = L /\ p_line (f_p fs) = line') by (destruct Hfs as [-> | ->]; (split; [|reflexivity]); [reflexivity|destruct L; reflexivity]).
  destruct Er as [Er El]. rewrite Er in Ep. rewrite El in P1, P2. apply app_inv_tail in Ep. subst pre. split; [exact P1|exact P2].
Qed.
Definition step_result (cx : pctx) (e : event) (stk : list (str * block)) (T : list token) (line : nat) (L : list token) (f : nat) (r : pres fstate (option node)) : Prop :=
  match e with
  | EvItem _ | EvElse _ _ => exists n fs line', r = POk (Some n) fs /\ fs_at L stk line' fs /\ passed T L line line'
  | EvOpen _ c _ => exists b line' byte, r = block_loop f cx (mkF (mkPst L line' byte) ((call_name c, b) :: stk) None) /\ passed T L line line'
  | EvClose _ c =>
      match stk with
      | [] => rejected cx (SBlockNotOpen, match simple_name c with Some w => [lit "perhaps open the block '" ++ w ++ lit "'"] | None => [] end) T L line [] r
      | (o, b) :: stk =>
          match simple_name c with
          | Some w => if streq o w then exists n fs line', r = POk (Some n) fs /\ fs_at L stk line' fs /\ passed T L line line'
              else rejected cx (STagNameMismatch, [lit "opening name is '" ++ o ++ lit "'"]) T L line stk r
          | None => rejected cx (SExpectedIdentifier, []) T L line stk r
          end
      end
  | EvBad k | EvUnclosed k => rejected cx (k, []) T L line stk r
  | EvRaw o => rejected cx (STagNameMismatch, [lit "opening name is '" ++ o ++ lit "'"]) T L line stk r
  end.
Definition event_good (cx : pctx) (e : event) (T : list token) : Prop := exists t T' bk, T = t :: T' /\ t_kind t = TBlock bk
  /\ (is_text_event e = false -> is_text (t_kind t) = false)
  /\ forall L line byte f stk, (is_text_event e = true -> stops nontext L) -> (is_unclosed e = true -> L = []) -> sound (px_src cx) (T ++ L) -> 2 * length (T' ++ L) + 2 <= S f ->
       step_result cx e stk T line L f (advance (S f) cx t (mkF (mkPst (T' ++ L) line byte) stk None)).
(** the pieces [ss] of the source, from byte [p] on, are read as [evs] *)
Inductive run (cx : pctx) : nat -> list event -> list str -> list token -> Prop :=
| run_nil p : p = blen (px_src cx) -> run cx p [] [] []
| run_cons p e evs s ss T L : event_good cx e T -> pos (px_src cx) (T ++ L) = p -> run cx (p + blen s) evs ss L ->
    (is_text_event e = true -> match evs with e' :: _ => is_text_event e' = false | [] => True end) -> (is_unclosed e = true -> L = []) ->
    run cx p (e :: evs) (s :: ss) (T ++ L).

(** ** Events as written *)
Lemma item_leaf pe i s : is_block i = false -> is_itext i = false -> item_ok pe i -> item_writes Loose i s -> leaf_good Loose pe i s.
Proof.
  intros Hb Ht Hok Hw.
  inversion Hok as [|? ? ? ? Hc|? ? ? ? ? ? Hc Ha|? H1 H2 H3|? H1|? H1 H2 H3|? ? H1 H2|c m s0 m' d Hc Hbn Hd Es Ho|p c m body brs m' H1 H2 H3 H4 H5]; subst; try discriminate.
  - now apply stmt_leaf.
  - now apply dyn_leaf.
  - inversion Hw; subst. now apply comment_leaf.
  - inversion Hw; subst. now apply raw_comment_leaf.
  - inversion Hw; subst. now apply escaped_leaf.
  - inversion Hw; subst. now apply link_leaf.
  - apply raw_leaf; [exact Hc|exact Hbn| |exact Hw]. destruct Es as (ss & Hss & ->). apply (items_raw Loose pe d); [exact Hd|exact Hss| |exact Ho].
    eapply items_list; [exact Hd|exact Hss|]. intros j w _ _ Htj Hokj Hwj. eapply item_all_good; [apply Nat.lt_succ_diag_r|exact Hokj|exact Hwj|exact Htj].
Qed.
Definition written (pe : penv) (e : event) (s : str) : Prop := forall p rest, nobrace rest -> (is_unclosed e = true -> rest = []) -> exists T,
  (forall L, tokenizes MBlock (p + blen s) rest L -> tokenizes MBlock p (s ++ rest) (T ++ L))
  /\ forall cx, px_env cx = pe -> at_ (px_src cx) p s -> event_good cx e T.
Lemma item_written pe i s : is_block i = false -> is_itext i = false -> item_ok pe i -> item_writes Loose i s -> written pe (EvItem i) s.
Proof.
  intros Hb Ht Hok Hw p rest Hr _. destruct (item_leaf pe i s Hb Ht Hok Hw p) as (k & e & ts & Hk & Hlex & Hparse).
  exists (Tok (TBlock k) p e :: ts). split; [intros L HL; cbn [app]; now apply Hlex|].
  intros cx He Hat. eexists _, ts, k. split; [reflexivity|]. split; [reflexivity|]. split; [intros _; exact Hk|].
  intros L line byte f stk _ _ Hs Hf. destruct (Hparse cx L line byte He Hat) as (n & l & b & _ & _ & Hadv). specialize (Hadv f stk). cbn [step_result].
  assert (Hfs : fs_at L stk l (mkF (mkPst L l b) stk None)) by (exists b; now left).
  eexists _, _, l. split; [exact Hadv|]. split; [exact Hfs|]. eapply ok_passed; eassumption.
Qed.
(** a tag with a good call *)
Lemma tag_written pe l mark k m p0 c r s : In (l, mark, k) opens -> In (lit r) closers -> callx_ok pe c -> tag_writes Loose l m mark p0 c r s ->
  forall p, exists e ts, (forall rest L, nobrace rest -> tokenizes MBlock (p + blen s) rest L -> tokenizes MBlock p (s ++ rest) (Tok (TBlock k) p e :: ts ++ L))
    /\ forall cx L line byte, px_env cx = pe -> at_ (px_src cx) p s ->
         exists cc line' byte', call_parse cx (p, e) (mkPst (ts ++ L) line byte) = POk cc (mkPst L line' byte')
           /\ exists cl, tag_result Loose pe cx p0 false c (p, e) cl cc.
Proof.
  intros Hin Hr Hc (a & f & u & z & -> & Ha & Hf & Hu & (gz & -> & Hgz)) p. apply partial_pre in Hf. apply around_gap in Hgz. unfold close_tag.
  destruct (open_good Loose pe l mark k m a f p0 false c u gz (tl_after m) (lit r) Hin Ha Hf Hu Hc Hgz Hr p) as (o & ts & _ & _ & Hlex & _ & Hparse).
  exists (p + blen o), ts. split; [exact Hlex|]. intros cx L line byte He Hat.
  destruct (Hparse cx L line byte He Hat) as (cc & l' & b' & E & Hres). exists cc, l', b'. split; [exact E|]. eexists. exact Hres.
Qed.
Lemma simple_block_name src pe cx pt cd x op cl c w ln : tag_result Loose pe cx pt cd x op cl c -> simple_name x = Some w -> src = px_src cx ->
  block_name src (block_set_call c (block_new op false ln)) = Some (Some w) /\ exists q, c_target c = TPath q.
Proof.
  intros (_ & _ & _ & _ & _ & H) Hs ->. destruct x as [h t args hash]. cbn in Hs. destruct h; try discriminate. destruct t; [|discriminate]. injection Hs as ->.
  destruct (H w args hash eq_refl) as (_ & q & Eq & Hsm & comp & cs & Ec & Hcs). split; [|exists q; exact Eq].
  unfold block_name. cbn [b_call block_set_call block_new]. rewrite Eq, Hsm, Ec, Hcs. reflexivity.
Qed.
Lemma complex_block_name src pe cx pt cd x op cl c ln : tag_result Loose pe cx pt cd x op cl c -> callx_ok pe x -> not_simple x -> src = px_src cx ->
  block_name src (block_set_call c (block_new op false ln)) = Some None.
Proof.
  intros (H & _) Hok Hs ->. inversion H as [? ? ? ? q ? ? ? h t xs hs Hp Hxs Hhs]; subst. inversion Hok as [? ? ? ? Hh Ht]; subst.
  unfold block_name. cbn [b_call block_set_call block_new c_target]. destruct Hp as (_ & _ & _ & _ & _ & _ & Hsm & _). rewrite Hsm.
  cbn in Hs. destruct h; try contradiction; destruct t; try contradiction; reflexivity.
Qed.
Lemma open_written pe p0 c m s : callx_ok pe c -> block_name_ok c -> tag_writes Loose "{{" m [35%N] p0 c "}}" s -> written pe (EvOpen p0 c m) s.
Proof.
  intros Hc Hn Hw p rest Hr _.
  destruct (tag_written pe "{{" [35%N] BStartBlockScope m p0 c "}}" s) with (p := p) as (e & ts & Hlex & Hparse); try assumption; [cbn; tauto|cbn; tauto|].
  exists (Tok (TBlock BStartBlockScope) p e :: ts). split; [intros L HL; cbn [app]; now apply Hlex|].
  intros cx He Hat. eexists _, ts, _. split; [reflexivity|]. split; [reflexivity|]. split; [reflexivity|].
  intros L line byte f stk _ _ Hs Hf. destruct (Hparse cx L line byte He Hat) as (cc & l' & b' & E & cl & Hres).
  destruct (call_passed _ _ ts L _ _ _ _ _ (proj1 Hs) eq_refl E) as (Hpass & Hl & Hb & Hb2 & Hci).
  rewrite advance_eq. cbn [t_kind is_newline is_text f_p f_stack f_next step_result]. cbv zeta. change (tspan (Tok (TBlock BStartBlockScope) p e)) with (p, e).
  unfold scope. rewrite E. cbn [pbind lift f_p].
  destruct c as [h t args hash]. cbn in Hn. destruct h as [w| | | | |]; try contradiction. destruct t; [|contradiction].
  destruct (simple_block_name (px_src cx) pe cx p0 false _ _ _ cc w (line_range (mkPst (ts ++ L) line byte)) Hres eq_refl eq_refl) as (Hbn & q & Hq).
  rewrite Hbn. cbn [block_set_call block_new b_call]. rewrite Hq.
  replace (call_name (Call (HdName w) [] args hash)) with w by (unfold call_name, path_text; cbn; now rewrite app_nil_r).
  eexists _, _, _. split; [reflexivity|exact Hpass].
Qed.
Lemma close_written pe c m s : callx_ok pe c -> simple_name c <> None \/ not_simple c -> tag_writes Loose "{{" m [47%N] false c "}}" s -> written pe (EvClose m c) s.
Proof.
  intros Hc Hn Hw p rest Hr _.
  destruct (tag_written pe "{{" [47%N] BEndBlockScope m false c "}}" s) with (p := p) as (e & ts & Hlex & Hparse); try assumption; [cbn; tauto|cbn; tauto|].
  exists (Tok (TBlock BEndBlockScope) p e :: ts). split; [intros L HL; cbn [app]; now apply Hlex|].
  intros cx He Hat. eexists _, ts, _. split; [reflexivity|]. split; [reflexivity|]. split; [reflexivity|].
  intros L line byte f stk _ _ Hs Hf. destruct (Hparse cx L line byte He Hat) as (cc & l' & b' & E & cl & Hres).
  destruct (call_passed _ _ ts L _ _ _ _ _ (proj1 Hs) eq_refl E) as (Hpass & Hl & Hb & Hb2 & Hci).
  rewrite advance_eq. cbn [t_kind is_newline is_text f_p f_stack f_next]. cbv zeta. change (tspan (Tok (TBlock BEndBlockScope) p e)) with (p, e).
  unfold scope. rewrite E. cbn [pbind lift f_p f_stack f_next].
  set (ln := line_range (mkPst (ts ++ L) line byte)).
  assert (Hbn : block_name (px_src cx) (block_set_call cc (block_new (p, e) false ln)) = Some (simple_name c)).
  { destruct (simple_name c) as [w|] eqn:Es.
    - now destruct (simple_block_name (px_src cx) pe cx false false c _ _ cc w ln Hres Es eq_refl).
    - destruct Hn as [Hn|Hn]; [congruence|]. eapply complex_block_name; try eassumption; reflexivity. }
  rewrite Hbn. cbn [step_result]. unfold set_byte. cbn [p_toks p_line p_byte].
  destruct stk as [|[o b] stk].
  - apply rejected_intro; [|left|exact Hl].
    + cbn [app pos t_start] in *. lia.
    + pose proof (proj1 Hs) as Hg. cbn [app] in Hg. apply ParserFacts.good_cons in Hg. destruct Hg as ((_ & _ & Hlt & _) & Hg & Hp). cbn [t_start t_end fst] in *. apply good_app in Hg. lia.
  - destruct (simple_name c) as [w|].
    + destruct (streq o w).
      * eexists _, _, l'. split; [reflexivity|]. split; [|exact Hpass]. exists b'. now left.
      * now apply rejected_intro.
    + now apply (rejected_intro _ (SExpectedIdentifier, [])).
Qed.
Lemma else_written pe cond m s : (forall x, cond = Some x -> callx_ok pe x) -> else_writes Loose cond m s -> written pe (EvElse cond m) s.
Proof.
  intros Hx (a & f & z & -> & Ha & (gz & -> & Hgz) & Hcond) p rest Hr _. apply around_gap in Hgz. unfold close_tag.
  assert (Hin : In ("{{"%string, [], BStartStatement) opens) by (cbn; tauto).
  assert (X : exists e ts, (forall L, tokenizes MBlock (p + blen (a ++ lit "else" ++ f ++ gz ++ tilde (tl_after m) ++ lit "}}")) rest L ->
       tokenizes MBlock p ((a ++ lit "else" ++ f ++ gz ++ tilde (tl_after m) ++ lit "}}") ++ rest) (Tok (TBlock BStartStatement) p e :: ts ++ L))
     /\ forall cx L line byte, px_env cx = pe -> at_ (px_src cx) p (a ++ lit "else" ++ f ++ gz ++ tilde (tl_after m) ++ lit "}}") ->
          exists cc line' byte', call_parse cx (p, e) (mkPst (ts ++ L) line byte) = POk cc (mkPst L line' byte')).
  { destruct cond as [x|].
    - destruct Hcond as (g & u & -> & Hg & Hu). specialize (Hx x eq_refl).
      destruct (open_good Loose pe "{{" [] BStartStatement m a (lit "else" ++ g) false true x u gz (tl_after m) (lit "}}")) with (p := p) as (o & ts & _ & _ & Hlex & _ & Hparse);
        [exact Hin|exact Ha|right; right; exists g; apply between_gap in Hg; destruct Hg; auto|exact Hu|exact Hx|exact Hgz|cbn; tauto|].
      rewrite <- !app_assoc in *. exists (p + blen o), ts. split; [intros L HL; specialize (Hlex rest L Hr HL); rewrite <- !app_assoc in *; exact Hlex|].
      intros cx L line byte He Hat. destruct (Hparse cx L line byte He Hat) as (cc & l' & b' & E & _). now exists cc, l', b'.
    - subst f. cbn [app]. destruct (else_open_good Loose m a gz (tl_after m) Ha Hgz p) as (o & ts & _ & _ & Hlex & _ & Hparse).
      exists (p + blen o), ts. split; [intros L HL; now apply Hlex|].
      intros cx L line byte He Hat. destruct (Hparse cx L line byte) as (cc & l' & b' & E & _). now exists cc, l', b'. }
  destruct X as (e & ts & Hlex & Hparse). exists (Tok (TBlock BStartStatement) p e :: ts). split; [exact Hlex|].
  intros cx He Hat. eexists _, ts, _. split; [reflexivity|]. split; [reflexivity|]. split; [reflexivity|].
  intros L line byte f0 stk _ _ Hs Hf. destruct (Hparse cx L line byte He Hat) as (cc & l' & b' & E).
  destruct (call_passed _ _ ts L _ _ _ _ _ (proj1 Hs) eq_refl E) as (Hpass & _).
  rewrite advance_eq. cbn [t_kind is_newline is_text f_p f_stack f_next step_result]. cbv zeta. change (tspan (Tok (TBlock BStartStatement) p e)) with (p, e).
  rewrite E. cbn [pbind lift]. eexists _, _, l'. split; [reflexivity|]. split; [|exact Hpass]. exists b'. now left.
Qed.
Lemma path_shown_ne h t : head_ok h -> path_shown h t <> [].
Proof.
  intros Hh E. unfold path_shown in E. assert (Hd : head_text h <> []).
  { destruct h; cbn [head_ok head_text] in *; try discriminate; [destruct w; [destruct Hh as [[] _]|discriminate]|destruct k; [lia|discriminate]]. }
  destruct h; try (apply app_eq_nil in E; destruct E as [E _]; now apply Hd). destruct t; [discriminate|]. apply app_eq_nil in E. destruct E as [E _]. now apply Hd.
Qed.
Lemma target_where src pe cx pt cd x op cl c p L : tag_result Loose pe cx pt cd x op cl c -> callx_ok pe x -> src = px_src cx -> cinv src p L c ->
  p <= fst (target_span (c_target c)) < pos src L.
Proof.
  intros (H & _) Hok -> ((Hs & _) & _). inversion H as [? ? ? ? q ? ? ? h t xs hs Hp Hxs Hhs]; subst. inversion Hok as [? ? ? ? Hh Ht]; subst. cbn [c_target target_span].
  assert (Hq : sp_in (px_src cx) p (pos (px_src cx) L) (pa_span q)).
  { unfold sps in Hs. rewrite Forall_forall in Hs. apply Hs. cbn [call_spans]. right. apply in_or_app. right. cbn [target_spans path_spans app]. now left. }
  destruct Hq as (Hv & Hlo & Hhi). destruct Hp as (_ & _ & _ & _ & _ & _ & _ & Hstr).
  destruct Hlo as [Hlo|Hlo]; [split; [exact Hlo|]|exfalso].
  - assert (Hne : fst (pa_span q) < snd (pa_span q)); [|lia]. destruct (Nat.lt_ge_cases (fst (pa_span q)) (snd (pa_span q))) as [Hlt|Hge]; [exact Hlt|exfalso].
    unfold path_str, sl in Hstr. apply slice_len in Hstr.
    apply (path_shown_ne h t Hh). destruct (path_shown h t) as [|c0 w0]; [reflexivity|]. exfalso. cbn [blen] in Hstr. pose proof (clen_pos c0). lia.
  - unfold path_str in Hstr. rewrite Hlo in Hstr. unfold sl in Hstr. cbn [fst snd] in Hstr. apply (path_shown_ne h t Hh).
    pose proof (slice_mid [] [] (px_src cx)) as E. cbn in E. cbn in Hstr. congruence.
Qed.
Lemma bad_written pe k s : bad_tag pe k s -> written pe (EvBad k) s.
Proof.
  intros H p rest Hr _. destruct H as [l m mark a f fl u k Hin Ha Hfl Hb Hfirst|m p0 c s Hw Hc Hn].
  - assert (Hk : exists tk, In (l, mark, tk) opens /\ In tk [BStartStatement; BStartBlockScope; BEndBlockScope; BStartRawBlock]).
    { cbn [tag_kinds In] in Hin. destruct Hin as [[= <- <-]|[[= <- <-]|[[= <- <-]|[[= <- <-]|[[= <- <-]|[]]]]]];
        [exists BStartStatement|exists BStartBlockScope|exists BEndBlockScope|exists BStartStatement|exists BStartRawBlock]; cbn; tauto. }
    destruct Hk as (tk & Hop & Htk). destruct (opening_split _ _ _ _ _ _ Hop Ha) as (o & g & -> & Hg & _ & Hnext).
    destruct (call_refuses pe g f fl u k Hg Hfl Hb (p + blen o) rest Hr) as (ts & Hlex & Hparse).
    assert (Hne : exists c r, fl ++ u = c :: r).
    { destruct (bad_all _ _ _ _ Hb) as [Hf _]. destruct (Hf ltac:(discriminate)) as (c & r & -> & _). destruct fl as [|x fl]; eexists _, _; reflexivity. }
    exists (Tok (TBlock tk) p (p + blen o) :: ts). split.
    + intros L HL. cbn [app]. eapply (tkz _ _ o (g ++ (fl ++ u) ++ rest)); [now rewrite <- !app_assoc| |reflexivity|].
      * apply Hnext. destruct Hne as (c & r & E). rewrite E. exists c, (r ++ rest). split; [reflexivity|].
        intro Hc. apply Hfirst. rewrite E. exists c, r. split; [reflexivity|exact Hc].
      * rewrite (opens_mode _ _ _ Hop). specialize (Hlex L). rewrite <- !app_assoc in *. apply Hlex. rewrite blen_app, Nat.add_assoc in HL. exact HL.
    + intros cx He Hat. rewrite <- app_assoc in Hat. apply at_r in Hat.
      assert (Hts : forall f0 line byte L stk, good (px_src cx) ((Tok (TBlock tk) p (p + blen o) :: ts) ++ L) ->
        rejected cx (k, []) (Tok (TBlock tk) p (p + blen o) :: ts) L line stk (advance (S f0) cx (Tok (TBlock tk) p (p + blen o)) (mkF (mkPst (ts ++ L) line byte) stk None))).
      { intros f0 line byte L stk Hgd. specialize (Hparse cx (p, p + blen o) L line byte He Hat).
        rewrite advance_eq. cbn [t_kind f_p f_stack f_next]. cbv zeta. change (tspan (Tok (TBlock tk) p (p + blen o))) with (p, p + blen o).
        cbn [In] in Htk. destruct Htk as [<-|[<-|[<-|[<-|[]]]]]; cbn [is_newline is_text].
        - pose proof (refuses_rejected cx k _ ts L line byte stk (fun c st => POk c st) (fun c fs => POk (Some (NStmt c)) fs) Hgd Hparse) as R.
          change (tspan (Tok _ p (p + blen o))) with (p, p + blen o) in R. destruct (call_parse _ _ _); exact R.
        - exact (refuses_rejected cx k _ ts L line byte stk _ _ Hgd Hparse).
        - exact (refuses_rejected cx k _ ts L line byte stk _ _ Hgd Hparse).
        - exact (refuses_rejected cx k _ ts L line byte stk _ _ Hgd Hparse). }
      eexists _, ts, _. split; [reflexivity|]. split; [reflexivity|]. split.
      * intros _. cbn [In] in Htk. destruct Htk as [<-|[<-|[<-|[<-|[]]]]]; reflexivity.
      * intros L line byte f0 stk _ _ Hs _. apply Hts. apply Hs.
  - destruct (tag_written pe "{{" [35%N] BStartBlockScope m p0 c "}}" s) with (p := p) as (e & ts & Hlex & Hparse); try assumption; [cbn; tauto|cbn; tauto|].
    exists (Tok (TBlock BStartBlockScope) p e :: ts). split; [intros L HL; cbn [app]; now apply Hlex|].
    intros cx He Hat. eexists _, ts, _. split; [reflexivity|]. split; [reflexivity|]. split; [reflexivity|].
    intros L line byte f stk _ _ Hs Hf. destruct (Hparse cx L line byte He Hat) as (cc & l' & b' & E & cl & Hres).
  destruct (call_passed _ _ ts L _ _ _ _ _ (proj1 Hs) eq_refl E) as (Hpass & Hl & Hb & Hb2 & Hci).
    rewrite advance_eq. cbn [t_kind is_newline is_text f_p f_stack f_next step_result]. cbv zeta. change (tspan (Tok (TBlock BStartBlockScope) p e)) with (p, e).
    unfold scope. rewrite E. cbn [pbind lift f_p].
    rewrite (complex_block_name (px_src cx) pe cx p0 false c _ _ cc (line_range (mkPst (ts ++ L) line byte)) Hres Hc Hn eq_refl).
    apply (rejected_intro _ (SBlockName, [])); [|left|exact Hl]; cbn [app pos t_start]; apply (target_where (px_src cx) pe cx _ _ _ _ _ _ p L Hres Hc eq_refl Hci).
Qed.

(** ** Raw blocks closed under the wrong name, and pieces that are not closed *)
Lemma until_bound stop ts : forall sp L line byte, (forall x, In x ts -> stop (t_kind x) = false) ->
  exists sp1 line1 byte1, until stop sp (ts ++ L) line byte = until stop sp1 L line1 byte1 /\ line1 = line + nlc ts
    /\ ((ts = [] /\ byte1 = byte) \/ exists x, In x ts /\ byte1 = t_end x - 1).
Proof.
  induction ts as [|x ts IH]; intros sp L line byte Hs.
  - exists sp, line, byte. split; [reflexivity|]. cbn. split; [lia|now left].
  - cbn [app until]. rewrite (Hs x (or_introl eq_refl)).
    destruct (IH (fst sp, t_end x) L (if is_newline (t_kind x) then S line else line) (t_end x - 1) (fun y Hy => Hs y (or_intror Hy))) as (sp1 & l1 & b1 & E1 & El & Eb). exists sp1, l1, b1. split; [exact E1|]. split.
    + rewrite El. cbn [nlc]. unfold nl1. destruct (is_newline (t_kind x)); lia.
    + right. destruct Eb as [(_ & ->)|(y & Hy & ->)]; [exists x; cbn; tauto|exists y; cbn; tauto].
Qed.
Lemma good_in src T L x : good src (T ++ L) -> In x T -> pos src (T ++ L) <= t_end x - 1 < pos src L.
Proof.
  intros Hg Hx. apply in_split in Hx. destruct Hx as (a & b & ->). rewrite <- app_assoc in *. pose proof (proj2 (good_app _ _ _ Hg)) as H1. apply good_app in Hg. destruct Hg as [Hg _].
  cbn [app] in *. apply ParserFacts.good_cons in Hg. destruct Hg as ((_ & _ & Hlt & _) & Hg & Hp). apply good_app in Hg. destruct Hg as [_ Hg]. cbn [pos] in H1. lia.
Qed.
Lemma ctoks_kinds kt kn s : forall p x, In x (ctoks kt kn p s) -> t_kind x = kt \/ t_kind x = kn.
Proof. induction s as [|c s IH]; intros p x; cbn [ctoks In]; [contradiction|]. intros [<-|H]; [cbn; destruct (N.eqb c 10); tauto|eapply IH, H]. Qed.
Lemma tkz_empty m p L : tokenizes m p [] L -> L = [].
Proof.
  intros H. inversion H as [|? ? w r k l Hn Hr Em Ep E El]; [reflexivity|]. exfalso. apply app_eq_nil in E. destruct E as [-> ->]. apply next_token_len in Hn. cbn in Hn. lia.
Qed.
Lemma plain_unclosed pe k0 err o s m f E stop :
  blen o = length o -> s <> [] -> is_text (TBlock k0) = false -> is_newline (TBlock k0) = false ->
  next_token MBlock (o ++ s) (TBlock k0) (length o) -> next_mode (TBlock k0) = m -> plain_mode m f E ->
  (forall a x b n, s = a ++ x :: b -> ~ pat_match E (x :: b) n) ->
  stop (f PText) = false -> stop (f PNewline) = false ->
  (forall cx t fs fuel, t_kind t = TBlock k0 -> fst (text_until stop (tspan t) (f_p fs)) = None ->
     advance (S fuel) cx t fs = lift (perr_n cx err [] (snd (text_until stop (tspan t) (f_p fs)))) (f_stack fs) (f_next fs)) ->
  written pe (EvUnclosed err) (o ++ s).
Proof.
  intros Ho Hne Hnt Hnl Hopen Hm Hpm Hclear S1 S2 Hadv p rest Hr Hrest. specialize (Hrest eq_refl). subst rest.
  set (ts := ctoks (f PText) (f PNewline) (p + blen o) s). exists (Tok (TBlock k0) p (p + blen o) :: ts). split.
  - intros L HL. rewrite app_nil_r. eapply (tkz _ _ o s); [reflexivity|exact Hopen|reflexivity|]. rewrite Hm.
    pose proof (plain_lex m f E s (p + blen o) [] L Hpm) as X. rewrite app_nil_r in X. apply X.
    + intros a c b n Es. rewrite app_nil_r. now apply (Hclear a).
    + apply tkz_empty in HL. subst L. constructor.
  - intros cx He Hat. eexists _, ts, k0. split; [reflexivity|]. split; [reflexivity|]. split; [intros _; exact Hnt|].
    intros L line byte fu stk _ HL Hs Hf. specialize (HL eq_refl). subst L. cbn [step_result].
    assert (Hstop : forall x, In x ts -> stop (t_kind x) = false) by (intros x Hx; destruct (ctoks_kinds _ _ _ _ _ Hx) as [-> | ->]; assumption).
    destruct (until_bound stop ts (p + blen o, p + blen o) [] line byte Hstop) as (sp1 & l1 & b1 & E1 & El & Eb). cbn [until] in E1.
    assert (Etu : text_until stop (tspan (Tok (TBlock k0) p (p + blen o))) (mkPst (ts ++ []) line byte) = (None, mkPst [] l1 b1)).
    { unfold text_until. cbn [p_toks p_line p_byte snd]. change (tspan (Tok (TBlock k0) p (p + blen o))) with (p, p + blen o). cbn [snd]. rewrite E1. reflexivity. }
    rewrite Hadv by (try reflexivity; cbn [f_p]; rewrite Etu; reflexivity). cbn [f_p f_stack f_next]. rewrite Etu. cbn [snd].
    destruct Eb as [(Eb & _)|(x & Hx & ->)]; [exfalso; subst ts; destruct s; [congruence|discriminate Eb]|].
    pose proof (good_in _ _ _ x (proj1 Hs) (or_intror Hx)) as Hb. apply (rejected_intro cx (err, [])); [apply Hb|left; apply Hb|]. cbn [nlc]. lia.
Qed.
Lemma not_lit_at w s a x b n : ~ occurs (lit w) s -> s = a ++ x :: b -> ~ pat_match (ch w) (x :: b) n.
Proof.
  intros Ho Hs Hm. apply lit_bound in Hm. destruct Hm as [-> Hf]. apply Ho. exists a, (skipn (length (lit w)) (x :: b)). rewrite Hs. f_equal. rewrite <- Hf at 1. symmetry. apply firstn_skipn.
Qed.

Lemma comment_unclosed pe s : s <> [] -> ~ occurs (lit "}}") s -> (forall r, s <> lit "--" ++ r) -> written pe (EvUnclosed SCommentNotTerminated) (lit "{{!" ++ s).
Proof.
  intros H0 H1 H3. apply (plain_unclosed pe BStartComment SCommentNotTerminated (lit "{{!") s MComment TComment (ch "}}") is_end_comment); try reflexivity; try assumption.
  - now apply next_comment.
  - now right; right.
  - intros a x b n E. now apply (not_lit_at "}}" s a).
  - intros cx t fs fuel Hk H. rewrite advance_eq. rewrite Hk. cbn [is_newline is_text]. unfold comment.
    destruct (text_until is_end_comment (tspan t) (f_p fs)) as [[[tb x]|] st]; [discriminate H|]. unfold perr. cbn [snd]. unfold perr_n. destruct (err_info _ _ _ _ _ _); reflexivity.
Qed.
Lemma raw_comment_unclosed pe s : s <> [] -> ~ occurs (lit "--}}") s -> written pe (EvUnclosed SRawCommentNotTerminated) (lit "{{!--" ++ s).
Proof.
  intros H0 H1. apply (plain_unclosed pe BStartRawComment SRawCommentNotTerminated (lit "{{!--") s MRawComment TRawComment (ch "--}}") is_end_raw_comment); try reflexivity; try assumption.
  - apply next_raw_comment.
  - now left.
  - intros a x b n E. now apply (not_lit_at "--}}" s a).
  - intros cx t fs fuel Hk H. rewrite advance_eq. rewrite Hk. cbn [is_newline is_text]. unfold raw_comment.
    destruct (text_until is_end_raw_comment (tspan t) (f_p fs)) as [[[tb x]|] st]; [discriminate H|]. unfold perr. cbn [snd]. unfold perr_n. destruct (err_info _ _ _ _ _ _); reflexivity.
Qed.
Lemma escaped_unclosed pe s : s <> [] -> ~ occurs (lit "}}") s -> ~ begins_with 123%N s -> written pe (EvUnclosed SRawStatementNotTerminated) (lit "\{{" ++ s).
Proof.
  intros H0 H1 H3. apply (plain_unclosed pe BStartRawStatement SRawStatementNotTerminated (lit "\{{") s MRawStatement TRawStatement (RCat (ROpt (ch "~")) (RCat (ROpt (ch "}")) (ch "}}"))) is_end_raw_statement); try reflexivity; try assumption.
  - now apply next_escaped.
  - right; left. split; [reflexivity|]. split; reflexivity.
  - intros a x b n E [_ Hm]. apply raw_end_lang in Hm. destruct Hm as (v & Hm). pose proof (firstn_skipn n (x :: b)) as Hx. destruct Hm as [Hm|Hm]; unfold chr in *; rewrite Hm in Hx; apply H1.
    + exists a, (v ++ skipn n (x :: b)). rewrite E. rewrite <- Hx at 1. now rewrite <- app_assoc.
    + exists (a ++ [126%N]), (v ++ skipn n (x :: b)). rewrite E. rewrite <- Hx at 1. now rewrite <- !app_assoc.
  - intros cx t fs fuel Hk H. rewrite advance_eq. rewrite Hk. cbn [is_newline is_text]. unfold raw_statement.
    destruct (text_until is_end_raw_statement (tspan t) (f_p fs)) as [[[tb x]|] st]; [discriminate H|]. unfold perr. cbn [snd]. unfold perr_n. destruct (err_info _ _ _ _ _ _); reflexivity.
Qed.
(** links *)
Lemma next_ltext_end w : w <> [] -> w <> [10]%N -> (forall c, In c w -> ~ In c [92; 124; 93]%N) -> next_token MLink w (TLink LText) (length w).
Proof.
  intros Hn H10 Hw. destruct w as [|c w]; [congruence|]. pose proof (Hw c (or_introl eq_refl)) as Hc. cbn in Hc.
  assert (C1 : (92 =? c)%N = false) by (apply N.eqb_neq; intro; tauto). assert (C2 : (124 =? c)%N = false) by (apply N.eqb_neq; intro; tauto).
  assert (C3 : (93 =? c)%N = false) by (apply N.eqb_neq; intro; tauto).
  rewrite <- (app_nil_r (c :: w)) at 1.
  eapply (next_intro MLink [(nl, TLink LNewline)] (RPlus (RChr (fun c => negb (class [92; 124; 93]%N c)))) (TLink LText) (tag TLink (skipn 2 pats_link)));
    [reflexivity|discriminate| | |].
  - apply lang_plus_chr. split; [discriminate|]. apply forallb_forall. intros x Hx. specialize (Hw x Hx). cbn in Hw. apply negb_true_iff.
    unfold class. cbn. repeat (apply orb_false_iff; split); try apply N.eqb_neq; try reflexivity; intro; subst; tauto.
  - intros r k n [[= <- <-]|[]] Hm. destruct w as [|c2 w]; [|apply SynLink.nl_one in Hm; cbn; lia].
    exfalso. eapply first_bound; [|exact Hm]. change ((10 =? c)%N = false). apply N.eqb_neq. intro; subst. now apply H10.
  - intros r k n Hin Hm. rewrite app_nil_r in Hm. apply Hm.
Qed.
Lemma link_unclosed pe (esc : bool) s : s <> [] -> s <> [10%N] -> (forall c, In c s -> ~ In c [92; 124; 93]%N) ->
  written pe (EvUnclosed SLinkNotTerminated) (((if esc then [92%N] else []) ++ lit "[[") ++ s).
Proof.
  intros H0 H1 H2 p rest Hr Hrest. specialize (Hrest eq_refl). subst rest. set (o := (if esc then [92%N] else []) ++ lit "[[").
  assert (Hob : blen o = length o) by (subst o; destruct esc; reflexivity).
  exists (Tok (TBlock BStartLink) p (p + blen o) :: [Tok (TLink LText) (p + blen o) (p + blen o + blen s)]). split.
  - intros L HL. apply tkz_empty in HL. subst L. rewrite !app_nil_r. eapply (tkz _ _ o s); [reflexivity|apply next_link|reflexivity|].
    cbn [next_mode]. eapply (tkz _ _ s []); [symmetry; apply app_nil_r|rewrite app_nil_r; now apply next_ltext_end|reflexivity|constructor].
  - intros cx He Hat. eexists _, _, BStartLink. split; [reflexivity|]. split; [reflexivity|]. split; [reflexivity|].
    intros L line byte fu stk _ HL Hs Hf. specialize (HL eq_refl). subst L. cbn [step_result app].
    rewrite advance_eq. cbn [t_kind is_newline is_text f_p f_stack f_next]. unfold link_parse. unfold set_byte, tspan. cbn [p_toks p_line p_byte snd t_start t_end fst link_href_go t_kind].
    pose proof (good_in _ _ _ (Tok (TLink LText) (p + blen o) (p + blen o + blen s)) (proj1 Hs) (or_intror (or_introl eq_refl))) as Hb. cbn [t_end] in Hb.
    cbn [pbind lk_close link_new link_set_href_span].
    match goal with |- rejected _ _ _ _ _ _ ?X => replace X with (@lift (option node) (perr_n cx SLinkNotTerminated [] (mkPst [] line (p + blen o + blen s - 1))) stk None) end.
    + apply (rejected_intro cx (SLinkNotTerminated, [])); [apply Hb|left; apply Hb|]. lia.
    + unfold perr, perr_n. cbn [p_line p_byte]. destruct (err_info _ _ _ _ _ _); reflexivity.
Qed.

(** raw blocks *)
Lemma raw_text_content pe s : raw_text pe s -> raw_content s.
Proof.
  intros (d & Hd & (ss & Hss & ->) & Ho). apply (items_raw Loose pe d); [exact Hd|exact Hss| |exact Ho].
  eapply items_list; [exact Hd|exact Hss|]. intros j w _ _ Htj Hokj Hwj. eapply item_all_good; [apply Nat.lt_succ_diag_r|exact Hokj|exact Hwj|exact Htj].
Qed.
Lemma raw_kinds s p : raw_content s -> exists ts,
  (forall rest L, nobrace rest -> tokenizes MBlock (p + blen s) rest L -> tokenizes MBlock p (s ++ rest) (ts ++ L))
  /\ forall x, In x ts -> is_end_raw_block (t_kind x) = false.
Proof.
  intros (_ & Hocc & Hlex). destruct (Hlex p) as (ts & Hts). exists ts. split; [exact Hts|].
  pose proof (Hts [] [] I (tkz_nil _ _)) as Ht. rewrite !app_nil_r in Ht. destruct (tokens_all _ _ _ _ Ht) as (Ho & _).
  intros x Hx. destruct (is_end_raw_block (t_kind x)) eqn:Ek; [|reflexivity]. exfalso. apply Hocc, (Ho x Hx).
  destruct (t_kind x) as [[]| | | | | | | |]; try discriminate; reflexivity.
Qed.
Lemma simple_target pe cx pt cd c op cl cc : tag_result Loose pe cx pt cd c op cl cc -> block_name_ok c -> c_close cc = Some cl /\ target_str (px_src cx) (c_target cc) = Some (call_name c).
Proof.
  intros (_ & _ & Hc & _ & _ & H) Hb. split; [exact Hc|]. destruct c as [h t args hash]. cbn in Hb. destruct h as [w| | | | |]; try contradiction. destruct t; [|contradiction].
  destruct (H w args hash eq_refl) as (E & _). rewrite E. unfold call_name, path_text. cbn [head_text tail_text]. now rewrite app_nil_r.
Qed.
Lemma good_suffix src T1 T2 L : good src ((T1 ++ T2) ++ L) -> good src (T2 ++ L) /\ pos src ((T1 ++ T2) ++ L) <= pos src (T2 ++ L).
Proof. rewrite <- app_assoc. intros H. apply good_app in H. tauto. Qed.
Lemma raw_unclosed pe m c a x : callx_ok pe c -> block_name_ok c -> tag_writes Loose "{{{{" m [] false c "}}}}" a -> raw_text pe x -> written pe (EvUnclosed SRawBlockNotTerminated) (a ++ x).
Proof.
  intros Hc Hb Hw Hx p rest Hr Hrest. specialize (Hrest eq_refl). subst rest. apply raw_text_content in Hx.
  destruct (tag_written pe "{{{{" [] BStartRawBlock m false c "}}}}" a) with (p := p) as (e & ts & Hlex & Hparse); try assumption; [cbn; tauto|cbn; tauto|].
  destruct (raw_kinds x (p + blen a) Hx) as (tss & Hlexs & Hks).
  exists (Tok (TBlock BStartRawBlock) p e :: ts ++ tss). split.
  - intros L HL. cbn [app]. rewrite <- !app_assoc. apply Hlex; [apply (proj1 Hx); exact I|]. apply Hlexs; [exact I|]. rewrite blen_app, Nat.add_assoc in HL. exact HL.
  - intros cx He Hat. eexists _, (ts ++ tss), _. split; [reflexivity|]. split; [reflexivity|]. split; [reflexivity|].
    intros L line byte f stk _ HL Hs Hf. specialize (HL eq_refl). subst L. cbn [step_result].
    destruct (Hparse cx tss line byte He (at_l _ _ _ _ Hat)) as (cc & l' & b' & E & cl & Hres).
    pose proof (proj1 Hs) as Hg. rewrite app_nil_r in Hg.
    destruct (call_passed _ (Tok (TBlock BStartRawBlock) p e) ts tss _ _ _ _ _ Hg eq_refl E) as (_ & Hl & Hb1 & _).
    destruct (simple_target _ _ _ _ _ _ _ _ Hres Hb) as (Ecl & Etg).
    rewrite advance_eq. cbn [t_kind is_newline is_text f_p f_stack f_next]. cbv zeta. unfold raw_block.
    change (tspan (Tok (TBlock BStartRawBlock) p e)) with (p, e). rewrite app_nil_r, E. cbn [pbind]. rewrite Ecl, Etg. cbn [pslice].
    unfold text_until. cbn [p_toks p_line p_byte].
    destruct (until_bound is_end_raw_block tss (snd cl, snd cl) [] l' b' Hks) as (sp1 & l1 & b1 & E1 & El & Eb). rewrite app_nil_r in E1. rewrite E1. cbn [until].
    match goal with |- rejected _ _ _ _ _ _ ?X => replace X with (@lift (option node) (perr_n cx SRawBlockNotTerminated [] (mkPst [] l1 b1)) stk None)
      by (unfold perr, perr_n; cbn [p_line p_byte]; destruct (err_info _ _ _ _ _ _); reflexivity) end.
    apply (rejected_intro cx (SRawBlockNotTerminated, [])); [|now right|].
    + rewrite app_nil_r. destruct Eb as [(_ & ->)|(y & Hy & ->)]; [exact Hb1|]. rewrite <- (app_nil_r (_ :: _)).
      refine (proj1 (good_in _ _ _ y (proj1 Hs) _)). right. apply in_or_app. now right.
    + change (nlc (Tok (TBlock BStartRawBlock) p e :: ts ++ tss)) with (nlc ((Tok (TBlock BStartRawBlock) p e :: ts) ++ tss)). rewrite nlc_app. lia.
Qed.
Lemma raw_written pe c w s : raw_writes pe c w s -> w <> call_name c -> written pe (EvRaw (call_name c)) s.
Proof.
  intros (m & a & x & m' & z & -> & Hc & Hb & Hw & Hx & Hnm & Hz) Hne p rest Hr _. apply raw_text_content in Hx.
  assert (Hck : callx_ok pe (closing w)) by (constructor; [exact Hnm|constructor|constructor|constructor|constructor]).
  assert (Hwz : tag_writes Loose "{{{{" m' [47%N] false (closing w) "}}}}" z).
  { destruct Hz as (a2 & z2 & -> & Ha2 & Hz2). exists a2, [], w, z2. split; [reflexivity|]. split; [exact Ha2|]. split; [reflexivity|]. split; [apply closing_writes|exact Hz2]. }
  destruct (tag_written pe "{{{{" [] BStartRawBlock m false c "}}}}" a) with (p := p) as (e & ts & Hlex & Hparse); try assumption; [cbn; tauto|cbn; tauto|].
  destruct (raw_kinds x (p + blen a) Hx) as (tss & Hlexs & Hks). set (p2 := p + blen a + blen x) in *.
  destruct (tag_written pe "{{{{" [47%N] BEndRawBlock m' false (closing w) "}}}}" z) with (p := p2) as (e2 & ts2 & Hlex2 & Hparse2); try assumption; [cbn; tauto|cbn; tauto|].
  destruct (tag_first _ _ _ _ BEndRawBlock _ _ _ _ ltac:(cbn; tauto) Hwz) as (z0 & Ez).
  set (t1 := Tok (TBlock BStartRawBlock) p e) in *. set (t2 := Tok (TBlock BEndRawBlock) p2 e2) in *.
  exists (t1 :: ts ++ tss ++ t2 :: ts2). split.
  - intros L HL. cbn [app]. rewrite <- !app_assoc. apply Hlex; [apply (proj1 Hx); rewrite Ez; cbn; discriminate|]. apply Hlexs; [rewrite Ez; cbn; discriminate|].
    cbn [app]. apply Hlex2; [exact Hr|]. rewrite !blen_app, !Nat.add_assoc in HL. exact HL.
  - intros cx He Hat. eexists t1, (ts ++ tss ++ t2 :: ts2), _. split; [reflexivity|]. split; [reflexivity|]. split; [reflexivity|].
    intros L line byte f stk _ _ Hs Hf. cbn [step_result].
    pose proof (at_l _ _ _ _ Hat) as Hat1. apply at_r, at_r in Hat. fold p2 in Hat.
    set (L2 := ts2 ++ L). set (L1 := tss ++ t2 :: L2).
    assert (EL : (ts ++ tss ++ t2 :: ts2) ++ L = ts ++ L1) by (subst L1 L2; now rewrite <- !app_assoc).
    destruct (Hparse cx L1 line byte He Hat1) as (cc & l' & b' & E & cl & Hres).
    pose proof (proj1 Hs) as Hg. 
    assert (Hg1 : good (px_src cx) ((t1 :: ts) ++ L1)) by (cbn [app] in *; rewrite EL in Hg; exact Hg).
    destruct (call_passed _ t1 ts L1 _ _ _ _ _ Hg1 eq_refl E) as (_ & Hl & Hb1 & _).
    destruct (simple_target _ _ _ _ _ _ _ _ Hres Hb) as (Ecl & Etg).
    destruct (until_bound is_end_raw_block tss (snd cl, snd cl) (t2 :: L2) l' b' Hks) as (sp1 & l1 & b1 & E1 & El & Eb).
    destruct (Hparse2 cx L l1 b1 He Hat) as (c2 & l3 & b3 & E2 & cl2 & Hres2). fold L2 in E2.
    replace (t1 :: ts ++ tss ++ t2 :: ts2) with ((t1 :: ts ++ tss) ++ t2 :: ts2) in * by (cbn [app]; now rewrite <- !app_assoc).
    destruct (good_suffix _ _ _ _ Hg) as (Hg2 & Hp2).
    destruct (call_passed _ t2 ts2 L _ _ _ _ _ Hg2 eq_refl E2) as (_ & Hl2 & Hb2 & Hb3 & _).
    assert (Htgt : c_close c2 = Some cl2 /\ target_str (px_src cx) (c_target c2) = Some w).
    { destruct Hres2 as (_ & _ & Hcl2 & _ & _ & H). split; [exact Hcl2|]. now destruct (H w [] [] eq_refl) as (X & _). }
    destruct Htgt as (Ecl2 & Etg2).
    rewrite advance_eq. change (t_kind t1) with (TBlock BStartRawBlock). cbn [is_newline is_text f_p f_stack f_next]. cbv zeta. unfold raw_block.
    change (tspan t1) with (p, e). rewrite EL, E. cbn [pbind]. rewrite Ecl, Etg. cbn [pslice].
    unfold text_until. cbn [p_toks p_line p_byte]. fold L1 in E1. rewrite E1. cbn [until]. change (t_kind t2) with (TBlock BEndRawBlock). cbn [is_end_raw_block is_newline].
    change (tspan t2) with (p2, e2). rewrite E2. cbn [pbind]. rewrite Ecl2, Etg2. cbn [pslice].
    replace (streq (call_name c) w) with false by (symmetry; destruct (streq (call_name c) w) eqn:Eq; [apply streq_eq in Eq; congruence|reflexivity]).
    match goal with |- rejected _ ?m _ _ _ _ ?X => replace X with (@lift (option node) (perr_n cx (fst m) (snd m) (mkPst L l3 b3)) stk None)
      by (unfold perr_n; cbn [fst snd p_line p_byte]; destruct (err_info _ _ _ _ _ _); reflexivity) end.
    apply rejected_intro; [lia|exact Hb3|]. rewrite nlc_app. change (t1 :: ts ++ tss) with ((t1 :: ts) ++ tss). rewrite nlc_app. lia.
Qed.
Lemma unclosed_written pe k s : unclosed pe k s -> written pe (EvUnclosed k) s.
Proof.
  intros [s0 H1 H2 H3|s0 H1 H2|s0 H1 H2 H3|esc s0 H1 H2 H3|m c a x H1 H2 H3 H4].
  - now apply comment_unclosed.
  - now apply raw_comment_unclosed.
  - now apply escaped_unclosed.
  - rewrite app_assoc. now apply link_unclosed.
  - now apply (raw_unclosed pe m c).
Qed.
