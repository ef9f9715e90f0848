(** * BadRun: compile and lint on whole sources made of good and bad tags (Spec_Bad). *)
From Coq Require Import Lia String.
From Verif Require Import Str Regex Lexer Json Ast ErrInfo Parser StrFacts RegexFacts Spec_Lexer LexerFacts ParserFacts CallFacts TreeFacts BlockFacts DocFacts DocProps Spec_Ast Spec_Source
  SynLex SynStr SynPath SynCall SynTag SynDoc SynItem SynBlock Spec_Bad BadFacts BadParse BadParse2 BadTag BadEvents.
Open Scope nat_scope. Open Scope list_scope.
Notation at_ := SynPath.at_.
Notation nontext := (fun k => negb (is_text k)).
Notation names := (map (@fst str block)).

(** ** From the source to the run *)
Lemma event_written pe e s : is_text_event e = false -> event_writes pe e s -> written pe e s.
Proof.
  intros Ht H. destruct H as [i s Hb Hok Hw|cond m s Hc Hw|p c m s Hc Hn Hw|m c s Hc Hn Hw|k s Hb|c w s Hraw Hne|k s Hb].
  - now apply item_written.
  - now apply else_written.
  - now apply open_written.
  - now apply close_written.
  - now apply bad_written.
  - now apply (raw_written pe c w s).
  - now apply unclosed_written.
Qed.
Lemma bad_tag_first pe k s : bad_tag pe k s -> exists r, s = 123%N :: r.
Proof.
  intros [l m mark a f fl u k' Hin Ha Hfl Hb Hf|m p c s' Hw Hc Hn].
  - assert (Hk : exists tk, In (l, mark, tk) opens).
    { cbn [tag_kinds In] in Hin. destruct Hin as [[= <- <-]|[[= <- <-]|[[= <- <-]|[[= <- <-]|[[= <- <-]|[]]]]]];
        [exists BStartStatement|exists BStartBlockScope|exists BEndBlockScope|exists BStartStatement|exists BStartRawBlock]; cbn; tauto. }
    destruct Hk as (tk & Hk). destruct (open_tag_first l m mark tk a Hk Loose Ha) as (r & ->). eexists. reflexivity.
  - eapply (tag_first _ _ _ _ BStartBlockScope); [|exact Hw]. cbn. tauto.
Qed.
Lemma event_first pe e s : is_text_event e = false -> event_writes pe e s -> exists c r, s = c :: r /\ In c [123; 91; 92]%N.
Proof.
  intros Ht H. destruct H as [i s Hb Hok Hw|cond m s Hc Hw|p c m s Hc Hn Hw|m c s Hc Hn Hw|k s Hb|c w s Hraw Hne|k s Hb].
  - eapply item_first; [exact Hw|]. destruct i; [discriminate Ht|reflexivity..].
  - destruct (else_first _ _ _ _ Hw) as (r & ->). eexists _, _; split; [reflexivity|cbn; tauto].
  - destruct (tag_first _ _ _ _ BStartBlockScope _ _ _ _ ltac:(cbn; tauto) Hw) as (r & ->). eexists _, _; split; [reflexivity|cbn; tauto].
  - destruct (tag_first _ _ _ _ BEndBlockScope _ _ _ _ ltac:(cbn; tauto) Hw) as (r & ->). eexists _, _; split; [reflexivity|cbn; tauto].
  - destruct (bad_tag_first _ _ _ Hb) as (r & ->). eexists _, _; split; [reflexivity|cbn; tauto].
  - destruct Hraw as (m & a & x & m' & z & -> & _ & _ & Hw & _). destruct (tag_first _ _ _ _ BStartRawBlock _ _ _ _ ltac:(cbn; tauto) Hw) as (r & ->). eexists _, _; split; [reflexivity|cbn; tauto].
  - destruct Hb as [s _ _ _|s _ _|s _ _ _|esc s _ _ _|m c a x _ _ Hw _]; [..|destruct (tag_first _ _ _ _ BStartRawBlock _ _ _ _ ltac:(cbn; tauto) Hw) as (r & ->)]; try (eexists _, _; split; [reflexivity|cbn; tauto]).
    destruct esc; eexists _, _; split; try reflexivity; cbn; tauto.
Qed.
Lemma events_first pe evs ss : events_ok true evs -> Forall2 (event_writes pe) evs ss -> nobrace (concat ss).
Proof.
  intros Hok Hw. inversion Hok as [|? s l Hp Ha Hb Hl Hrest|? e l Ht Hu Hrest]; subst; inversion Hw as [|? w ? ws Hw1 Hws]; subst; [exact I| |].
  - assert (E : w = s) by (inversion Hw1 as [i s0 Hb0 Hok0 Hw0| | | | | |]; subst; inversion Hw0; reflexivity). subst w.
    destruct Hp as [Hne _]. destruct s as [|c s]; [congruence|]. cbn. intros ->. apply (Ha eq_refl). exists s. reflexivity.
  - destruct (event_first _ _ _ Ht Hw1) as (c & r & -> & Hc). cbn. intros ->. cbn in Hc. intuition discriminate.
Qed.
Lemma tokenizes_pos m p s L src : tokenizes m p s L -> p + blen s = blen src -> pos src L = p.
Proof. intros [m0 p0|m0 p0 w rest k l Hn Ht] E; [|reflexivity]. cbn in *. lia. Qed.
Lemma source_run pe evs : forall after ss, events_ok after evs -> Forall2 (event_writes pe) evs ss -> forall p, exists L,
  tokenizes MBlock p (concat ss) L /\ forall cx, px_env cx = pe -> at_ (px_src cx) p (concat ss) -> p + blen (concat ss) = blen (px_src cx) -> run cx p evs ss L.
Proof.
  induction evs as [|e evs IH]; intros aft ss Hok Hw p; inversion Hw as [|? w ? ws Hw1 Hws]; subst.
  - exists []. split; [constructor|]. intros cx _ _ E. constructor. cbn in E. lia.
  - cbn [concat]. inversion Hok as [|? s l Hp Ha Hb Hl Hrest|? e' l Ht Hu Hrest]; subst.
    + assert (E : w = s) by (inversion Hw1 as [i s0 Hb0 Hok0 Hw0| | | | | |]; subst; inversion Hw0; reflexivity). subst w.
      destruct (IH false ws Hrest Hws (p + blen s)) as (L & HL & Hrun). exists (ttoks p s ++ L).
      assert (Hlex : tokenizes MBlock p (s ++ concat ws) (ttoks p s ++ L)).
      { apply text_lex; [exact Hp| |exact HL]. destruct evs as [|e evs]; [left; inversion Hws; reflexivity|right]. apply Hb. discriminate. }
      split; [exact Hlex|].
      intros cx He Hat Hend. pose proof (at_l _ _ _ _ Hat) as Hat1. apply at_r in Hat.
      constructor; [|now apply (tokenizes_pos MBlock p (s ++ concat ws))|apply Hrun; [exact He|exact Hat|rewrite blen_app in Hend; lia]|intros _; exact Hl|discriminate].
      destruct Hp as [Hne _].
      destruct (text_advance cx s p [] 0 0 Hne Hat1 I) as (c & s' & n & l1 & b1 & Etk & _).
      eexists _, s', (if N.eqb c 10 then BNewline else BText). split; [rewrite Etk; reflexivity|]. split; [cbn [t_kind]; destruct (N.eqb c 10); reflexivity|]. split; [discriminate|].
      intros L0 line byte f stk HL0 _ Hs Hf.
      destruct (text_advance cx s p L0 line byte Hne Hat1 (HL0 eq_refl)) as (c2 & s2 & n2 & l2 & b2 & Etk2 & _ & Hadv).
      rewrite Etk in Etk2. injection Etk2 as E1 E2 E3. subst s2. cbn [step_result].
      specialize (Hadv f stk). rewrite <- E1, <- E2 in Hadv.
      assert (Hfs : fs_at L0 stk l2 (mkF (mkPst (tl L0) l2 b2) stk (hd_error L0))) by (exists b2; now right).
      rewrite Etk in Hs. eexists _, _, l2. split; [exact Hadv|]. split; [exact Hfs|]. rewrite Etk. eapply ok_passed; [exact Hs|exact Hf|exact Hadv|exact Hfs].
    + destruct (IH true ws Hrest Hws (p + blen w)) as (L & HL & Hrun).
      assert (Hnil : is_unclosed e = true -> concat ws = []) by (intros E; specialize (Hu E); subst evs; inversion Hws; reflexivity).
      destruct (event_written _ _ _ Ht Hw1 p (concat ws) (events_first _ _ _ Hrest Hws) Hnil) as (T & Hlex & Hgood).
      exists (T ++ L). split; [now apply Hlex|]. intros cx He Hat Hend. pose proof (at_l _ _ _ _ Hat) as Hat1. apply at_r in Hat.
      constructor; [now apply Hgood| |apply Hrun; [exact He|exact Hat|rewrite blen_app in Hend; lia]| |].
      * eapply tokenizes_pos; [apply Hlex; exact HL|exact Hend].
      * rewrite Ht. discriminate.
      * intros E. rewrite (Hnil E) in HL. now apply tkz_empty in HL.
Qed.

(** ** Running *)
Lemma run_head cx p evs ss L : run cx p evs ss L -> match L with [] => True | t :: _ => exists bk, t_kind t = TBlock bk end.
Proof. intros [|? e evs' s ss' T L' (t & T' & bk & -> & Hk & _) _ _ _ _]; [exact I|]. cbn [app]. now exists bk. Qed.
Lemma run_pos cx p evs ss L : run cx p evs ss L -> pos (px_src cx) L = p.
Proof. intros [? ->|? e evs' s ss' T L' _ H _ _ _]; [reflexivity|exact H]. Qed.
Lemma run_stops cx p e evs ss L : run cx p (e :: evs) ss L -> is_text_event e = false -> stops nontext L.
Proof.
  intros H Ht. inversion H as [|? e0 evs' s ss' T L' (t & T' & bk & -> & Hk & Hn & _) Hp Hr Hs Hu]; subst. cbn [app stops]. now rewrite Hn.
Qed.
Lemma until_mode_inner inner L : Forall nonblock inner -> until_mode (inner ++ L) = until_mode L.
Proof. induction 1 as [|t inner Ht _ IH]; [reflexivity|]. cbn [app until_mode]. unfold nonblock in Ht. destruct (t_kind t); [contradiction|exact IH..]. Qed.
Lemma until_mode_run cx p evs ss L : run cx p evs ss L -> until_mode L = (hd_error L, tl L).
Proof. intros H. apply run_head in H. destruct L as [|t L]; [reflexivity|]. destruct H as (bk & H). cbn [until_mode]. now rewrite H. Qed.

Section Run.
Variables (cx : pctx) (toks : list token) (base : nat) (X : Prop).
Notation src := (px_src cx).
Hypothesis Hsound : sound src toks.
Hypothesis HX : X -> clean toks.
Local Notation run := (run cx).
(** [L] is left to be read, the line counter being [line] *)
Definition reached (L : list token) (line : nat) : Prop := exists pre, toks = pre ++ L /\ (X -> line = base + nlc pre).
Lemma reached_sound L line : reached L line -> sound src L.
Proof. intros (pre & E & _). rewrite E in Hsound. destruct Hsound as (H1 & H2 & H3). exact (suffix_ok _ _ _ H1 H2 H3). Qed.
Lemma reached_passed T L line line' : reached (T ++ L) line -> passed T L line line' -> reached L line'.
Proof.
  intros (pre & E & H) (_ & Hp). exists (pre ++ T). rewrite <- app_assoc. split; [exact E|]. intros HXX. rewrite nlc_app.
  pose proof (HX HXX) as Hc. rewrite E in Hc. apply clean_app in Hc. rewrite Hp, H by (try exact HXX; apply Hc). lia.
Qed.
(** what one call of the parser can do *)
Definition outcome (p : nat) (open : list str) (evs : list event) (ss : list str) (n : nat) (top : bool) (r : pres fstate (option node)) : Prop :=
  (exists nd fs L stk q evs' ss' line, r = POk (Some nd) fs /\ fs_at L stk line fs /\ (top = false -> stk = []) /\ run q evs' ss' L /\ reached L line /\ length L < n
     /\ mistakes p open evs ss = mistakes q (names stk) evs' ss')
  \/ (exists fs, r = POk None fs /\ mistakes p open evs ss = [])
  \/ (exists m T L stk q evs' ss' line, rejected cx m T L line stk r /\ run q evs' ss' L /\ reached (T ++ L) line /\ length L < n
     /\ mistakes p open evs ss = (m, (pos src (T ++ L), q)) :: mistakes q (names stk) evs' ss').
Lemma outcome_more p open evs ss p' open' evs' ss' n n' top r : outcome p open evs ss n top r ->
  mistakes p' open' evs' ss' = mistakes p open evs ss -> n <= n' -> outcome p' open' evs' ss' n' top r.
Proof.
  intros [(nd & fs & L & stk & q & evs2 & ss2 & l & H1 & H2 & H3 & H4 & H5 & H6 & H7)|[(fs & H1 & H2)|(m & T & L & stk & q & evs2 & ss2 & l & H1 & H2 & H3 & H4 & H5)]] E Hn.
  - left. exists nd, fs, L, stk, q, evs2, ss2, l. repeat (split; [first [assumption|lia]|]). congruence.
  - right; left. exists fs. split; [assumption|congruence].
  - right; right. exists m, T, L, stk, q, evs2, ss2, l. repeat (split; [first [assumption|lia]|]). congruence.
Qed.
Lemma outcome_top p open evs ss n r : outcome p open evs ss n false r -> outcome p open evs ss n true r.
Proof.
  intros [(nd & fs & L & stk & q & evs2 & ss2 & l & H1 & H2 & H3 & H4 & H5 & H6 & H7)|[H|H]]; [left|right; left; exact H|right; right; exact H].
  exists nd, fs, L, stk, q, evs2, ss2, l. split; [exact H1|]. split; [exact H2|]. split; [discriminate|]. repeat (split; [assumption|]). assumption.
Qed.
Lemma rejected_bind {A B} m T L l0 stk (r : pres fstate A) (f : A -> fstate -> pres fstate B) : rejected cx m T L l0 stk r -> rejected cx m T L l0 stk (pbind r f).
Proof.
  intros [-> |(pre & inner & line & byte & e & H1 & H2 & -> & H)]; [now left|right]. exists pre, inner, line, byte, e. split; [exact H1|]. split; [exact H2|]. split; [reflexivity|exact H].
Qed.
Lemma rejected_not {A} m T L l0 stk (r : pres fstate A) a fs : rejected cx m T L l0 stk r -> r <> POk a fs.
Proof. intros [-> |(pre & inner & line & byte & e & H1 & H2 & -> & H)]; discriminate. Qed.
(** one step at the top level, given what [block_loop] does on the rest *)
Lemma step_out p e evs s ss stk T L line f r : pos src (T ++ L) = p -> run (p + blen s) evs ss L -> reached (T ++ L) line -> step_result cx e stk T line L f r ->
  (forall stk' line' fs, fs_at L stk' line' fs -> reached L line' -> outcome (p + blen s) (names stk') evs ss (S (length L)) false (block_loop f cx fs)) ->
  outcome p (names stk) (e :: evs) (s :: ss) (S (length L)) true r
  /\ (forall nd fs, r = POk (Some nd) fs -> f_stack fs = []
        \/ (exists stk' line', fs_at L stk' line' fs /\ reached L line' /\ mistakes p (names stk) (e :: evs) (s :: ss) = mistakes (p + blen s) (names stk') evs ss)).
Proof.
  intros Ep Hrun Hre Hs Hloop. pose proof (run_pos _ _ _ _ _ Hrun) as Eq.
  set (goal := outcome p (names stk) (e :: evs) (s :: ss) (S (length L)) true r
    /\ (forall nd fs, r = POk (Some nd) fs -> f_stack fs = []
        \/ (exists stk' line', fs_at L stk' line' fs /\ reached L line' /\ mistakes p (names stk) (e :: evs) (s :: ss) = mistakes (p + blen s) (names stk') evs ss))).
  assert (Hok : forall stk' , (exists n fs line', r = POk (Some n) fs /\ fs_at L stk' line' fs /\ passed T L line line') ->
     mistakes p (names stk) (e :: evs) (s :: ss) = mistakes (p + blen s) (names stk') evs ss -> goal).
  { intros stk' (n & fs & line' & -> & Hfs & Hpass) Hv. pose proof (reached_passed _ _ _ _ Hre Hpass) as Hre'. split.
    - left. exists n, fs, L, stk', (p + blen s), evs, ss, line'. split; [reflexivity|]. split; [exact Hfs|]. split; [discriminate|]. split; [exact Hrun|]. split; [exact Hre'|]. split; [lia|exact Hv].
    - intros nd fs' [= _ <-]. right. exists stk', line'. split; [exact Hfs|]. split; [exact Hre'|exact Hv]. }
  assert (Hno : forall m stk', rejected cx m T L line stk' r ->
     mistakes p (names stk) (e :: evs) (s :: ss) = (m, (p, p + blen s)) :: mistakes (p + blen s) (names stk') evs ss -> goal).
  { intros m stk' Hr Hv. split.
    - right; right. exists m, T, L, stk', (p + blen s), evs, ss, line. split; [exact Hr|]. split; [exact Hrun|]. split; [exact Hre|]. split; [lia|]. rewrite Ep. exact Hv.
    - intros nd fs E. exfalso. exact (rejected_not _ _ _ _ _ _ _ _ Hr E). }
  destruct e as [i|cond m|p0 c m|m c|k|o|k]; cbn [step_result] in Hs.
  - apply (Hok stk Hs). reflexivity.
  - apply (Hok stk Hs). reflexivity.
  - destruct Hs as (b & line' & byte & -> & Hpass). pose proof (reached_passed _ _ _ _ Hre Hpass) as Hre'.
    assert (Ho : outcome (p + blen s) (call_name c :: names stk) evs ss (S (length L)) false (block_loop f cx (mkF (mkPst L line' byte) ((call_name c, b) :: stk) None))).
    { apply (Hloop ((call_name c, b) :: stk) line'); [exists byte; now left|exact Hre']. }
    split; [apply outcome_top; eapply outcome_more; [exact Ho|reflexivity|lia]|]. intros nd fs E. left.
    destruct Ho as [(nd2 & fs2 & L2 & stk2 & q2 & evs2 & ss2 & l2 & H1 & H2 & H3 & _)|[(fs2 & H1 & H2)|(k & T2 & L2 & stk2 & q2 & evs2 & ss2 & l2 & H1 & _)]].
    + rewrite H1 in E. injection E as <- <-. specialize (H3 eq_refl). subst stk2. destruct H2 as (b' & [-> | ->]); reflexivity.
    + congruence.
    + exfalso. exact (rejected_not _ _ _ _ _ _ _ _ H1 E).
  - destruct stk as [|[o b] stk].
    + apply (Hno _ [] Hs); reflexivity.
    + cbn [map fst mistakes verdict open_after tl] in *. destruct (simple_name c) as [w|].
      * destruct (streq o w); [apply (Hok stk Hs); reflexivity|apply (Hno _ stk Hs); reflexivity].
      * apply (Hno _ stk Hs); reflexivity.
  - apply (Hno _ stk Hs). reflexivity.
  - apply (Hno _ stk Hs). reflexivity.
  - apply (Hno _ stk Hs). reflexivity.
Qed.
Lemma run_cons_inv p e evs ss0 L0 : run p (e :: evs) ss0 L0 -> exists t T' L s ss, ss0 = s :: ss /\ L0 = (t :: T') ++ L /\ run (p + blen s) evs ss L /\ pos src ((t :: T') ++ L) = p
  /\ forall line byte f stk, sound src ((t :: T') ++ L) -> 2 * length (T' ++ L) + 2 <= S f ->
       step_result cx e stk (t :: T') line L f (advance (S f) cx t (mkF (mkPst (T' ++ L) line byte) stk None)).
Proof.
  intros H. inversion H as [|? e0 evs' s ss T L' Hg Hp Hr Hs Hu]; subst.
  destruct Hg as (t & T' & bk & -> & Hk & Hn & Hstep). exists t, T', L', s, ss. split; [reflexivity|]. split; [reflexivity|]. split; [exact Hr|]. split; [reflexivity|].
  intros line byte f stk. apply Hstep; [|exact Hu].
  intros Ht. specialize (Hs Ht). destruct evs as [|e' evs]; [inversion Hr; exact I|]. eapply run_stops; eassumption.
Qed.
Lemma block_out evs : forall p ss L stk line fs fuel, run p evs ss L -> fs_at L stk line fs -> reached L line -> 2 * length L + 1 <= fuel ->
  outcome p (names stk) evs ss (S (length L)) false (block_loop fuel cx fs).
Proof.
  induction evs as [|e evs IH]; intros p ss L0 stk line fs fuel Hrun (byte & Hfs) Hre Hfuel.
  - inversion Hrun; subst. destruct fuel as [|fuel]; [cbn in Hfuel; lia|]. rewrite block_loop_eq.
    right; left. destruct Hfs as [-> | ->]; (eexists; split; reflexivity).
  - assert (E : block_loop fuel cx fs = block_loop fuel cx (mkF (mkPst L0 line byte) stk None)) by (destruct Hfs as [-> | ->]; [reflexivity|apply block_loop_next]).
    rewrite E. destruct (run_cons_inv _ _ _ _ _ Hrun) as (t & T' & L & s & ss1 & -> & -> & Hr & Hp & Hstep).
    cbn [app length] in Hfuel. rewrite app_length in Hfuel. destruct fuel as [|[|f]]; [lia|lia|].
    change ((t :: T') ++ L) with (t :: T' ++ L). rewrite block_loop_cons. specialize (Hstep line byte f stk (reached_sound _ _ Hre) ltac:(rewrite app_length; lia)). set (r := advance (S f) cx t _) in *.
    destruct (step_out p e evs s ss1 stk (t :: T') L line f r Hp Hr Hre Hstep) as (Ho & Hnext).
    { intros stk' line' fs' Hfs' Hre'. eapply IH; [exact Hr|exact Hfs'|exact Hre'|lia]. }
    cbn [length]. rewrite app_length.
    destruct Ho as [(nd & fs2 & L2 & stk2 & q2 & evs2 & ss2 & l2 & H1 & H2 & H3 & H4 & H5 & H6 & H7)|[(fs2 & H1 & H2)|(k & T2 & L2 & stk2 & q2 & evs2 & ss2 & l2 & H1 & H2 & H3 & H4 & H5)]].
    + rewrite H1. cbn [pbind]. destruct (f_stack fs2) as [|[name b] stk3] eqn:Es.
      * left. exists nd, fs2, L2, stk2, q2, evs2, ss2, l2. split; [reflexivity|]. split; [exact H2|]. split; [|repeat (split; [first [assumption|lia]|]); assumption].
        intros _. destruct H2 as (b & [-> | ->]); exact Es.
      * destruct (Hnext nd fs2 H1) as [E0|(stk' & line' & Hfs' & Hre' & Hv)]; [congruence|].
        assert (Estk : stk' = (name, b) :: stk3) by (destruct Hfs' as (b0 & [-> | ->]); exact Es). subst stk'.
        eapply outcome_more; [eapply (IH _ ss1 L ((name, attach nd (line_range (f_p fs2)) b) :: stk3) line'); [exact Hr| |exact Hre'|lia]|exact Hv|lia].
        destruct Hfs' as (b0 & [E1|E1]); rewrite E1; cbn [f_p f_next]; exists b0; [now left|now right].
    + rewrite H1. cbn [pbind]. right; left. exists fs2. split; [reflexivity|exact H2].
    + right; right. exists k, T2, L2, stk2, q2, evs2, ss2, l2. split; [now apply rejected_bind|]. repeat (split; [first [assumption|lia]|]). assumption.
Qed.
(** the parser started on any state *)
Lemma top_out p evs ss L stk line fs : run p evs ss L -> fs_at L stk line fs -> reached L line ->
  match fst (ftoken fs) with
  | None => mistakes p (names stk) evs ss = []
  | Some t => outcome p (names stk) evs ss (length L) true (advance (adv_fuel (snd (ftoken fs))) cx t (snd (ftoken fs)))
  end.
Proof.
  intros Hrun (byte & Hfs) Hre. destruct evs as [|e evs].
  - inversion Hrun; subst. destruct Hfs as [-> | ->]; reflexivity.
  - destruct (run_cons_inv _ _ _ _ _ Hrun) as (t & T' & L1 & s & ss1 & -> & -> & Hr & Hp & Hstep).
    assert (E : ftoken fs = (Some t, mkF (mkPst (T' ++ L1) line byte) stk None)) by (destruct Hfs as [-> | ->]; reflexivity).
    rewrite E. cbn [fst snd]. unfold adv_fuel. cbn [f_p p_toks].
    replace (2 * length (T' ++ L1) + 4) with (S (2 * length (T' ++ L1) + 3)) by lia.
    specialize (Hstep line byte (2 * length (T' ++ L1) + 3) stk (reached_sound _ _ Hre) ltac:(lia)).
    destruct (step_out p e evs s ss1 stk (t :: T') L1 line _ _ Hp Hr Hre Hstep) as (Ho & _).
    { intros stk' line' fs' Hfs' Hre'. eapply block_out; [exact Hr|exact Hfs'|exact Hre'|rewrite app_length; lia]. }
    eapply outcome_more; [exact Ho|reflexivity|]. cbn [app length]. rewrite app_length. lia.
Qed.
(** the places of the tokens, as bytes of the source *)
Hypothesis HN : X -> forall q, nlat toks q = newlines_before 0 src q.
Lemma newlines_mono q q' : X -> q <= q' -> newlines_before 0 src q <= newlines_before 0 src q'.
Proof. intros HXX H. rewrite <- !(HN HXX). now apply nlat_mono. Qed.
Lemma reached_line L line : reached L line -> X -> line = base + newlines_before 0 src (pos src L).
Proof. intros (pre & E & H) HXX. rewrite <- (HN HXX). rewrite (H HXX), E. f_equal. symmetry. apply nlat_split. rewrite <- E. apply Hsound. Qed.
Lemma reached_piece T L line : reached (T ++ L) line -> X -> newlines_before 0 src (pos src (T ++ L)) = newlines_before 0 src (pos src L) -> nlc T = 0.
Proof.
  intros (pre & E & H) HXX. rewrite <- !(HN HXX). pose proof (proj1 Hsound) as Hg. rewrite E in *. rewrite (nlat_split src pre (T ++ L) Hg).
  rewrite app_assoc in *. rewrite (nlat_split src (pre ++ T) L Hg), nlc_app. lia.
Qed.
(** one mistake *)
Lemma rejected_located {A} m T L stk line (r : pres fstate A) : rejected cx m T L line stk r -> reached (T ++ L) line -> let x := (m, (pos src (T ++ L), pos src L)) in
  r = PPanic PanErrorInfo
  \/ exists inner l b e, r = PErr e (mkF (mkPst (inner ++ L) l b) stk None) /\ Forall nonblock inner
       /\ located (px_env cx) (px_file cx) src base (X /\ on_one_line src x) x e
       /\ exists pre, toks = pre ++ L /\ (X -> on_one_line src x -> l = base + nlc pre).
Proof.
  intros [-> |(pre & inner & l & b & e & H1 & H2 & -> & H3 & H4 & H5 & H6)] Hre x; [now left|right].
  exists inner, l, b, e. split; [reflexivity|]. split; [exact H2|].
  assert (Hl : X -> on_one_line src x -> l = line /\ nlc T = 0).
  { intros HXX H1l. pose proof (reached_piece T L line Hre HXX H1l) as Hz. rewrite Hz in H6. split; [lia|exact Hz]. }
  split.
  - split; [exact H3|]. exists l, b. split; [exact H4|]. split; [exact H5|]. intros [HXX H1l]. destruct (Hl HXX H1l) as [-> _].
    rewrite (reached_line _ _ Hre HXX). f_equal. unfold on_one_line in H1l. cbn [x fst snd] in H1l.
    pose proof (newlines_mono _ _ HXX (proj1 H5)) as Ha. pose proof (newlines_mono _ _ HXX (Nat.lt_le_incl _ _ (proj2 H5))) as Hb. lia.
  - destruct Hre as (pre0 & E & H). exists (pre0 ++ T). split; [now rewrite <- app_assoc|]. intros HXX H1l. destruct (Hl HXX H1l) as [-> Hz]. rewrite nlc_app, Hz, (H HXX). lia.
Qed.
Lemma located_weaken pe file s l0 (P Q : Prop) x e : (Q -> P) -> located pe file s l0 P x e -> located pe file s l0 Q x e.
Proof. intros H (H1 & line & byte & H2 & H3 & H4). split; [exact H1|]. exists line, byte. split; [exact H2|]. split; [exact H3|]. auto. Qed.

Lemma lint_verdict : forall fuel p evs ss L stk line fs errs, run p evs ss L -> fs_at L stk line fs -> reached L line -> length L < fuel ->
  (X -> Forall (on_one_line src) (mistakes p (names stk) evs ss)) ->
  lint_loop fuel cx errs fs = PPanic PanErrorInfo
  \/ exists more fs', lint_loop fuel cx errs fs = POk (errs ++ more) fs' /\ Forall2 (located (px_env cx) (px_file cx) src base X) (mistakes p (names stk) evs ss) more.
Proof.
  induction fuel as [|fuel IH]; intros p evs ss L stk line fs errs Hrun Hfs Hre Hf Hone; [lia|].
  rewrite lint_loop_eq. pose proof (top_out p evs ss L stk line fs Hrun Hfs Hre) as Ht. destruct (ftoken fs) as [[t|] fs1]; cbn [fst snd] in *.
  - destruct Ht as [(nd & fs2 & L2 & stk2 & q2 & evs2 & ss2 & l2 & H1 & H2 & _ & H4 & H5 & H6 & H7)|[(fs2 & H1 & H2)|(k & T2 & L2 & stk2 & q2 & evs2 & ss2 & l2 & H1 & H2 & H3 & H4 & H5)]].
    + rewrite H1, H7. rewrite H7 in Hone. eapply IH; [exact H4|exact H2|exact H5|lia|exact Hone].
    + rewrite H1. right. exists [], fs2. rewrite app_nil_r. split; [reflexivity|]. rewrite H2. constructor.
    + pose proof (run_pos _ _ _ _ _ H2) as Eq. subst q2. rewrite H5 in Hone |- *.
      destruct (rejected_located _ _ _ _ _ _ H1 H3) as [-> |(inner & l & b & e & -> & Hin & Hloc & Hre')]; [now left|].
      assert (H1l : X -> on_one_line src (k, (pos src (T2 ++ L2), pos src L2))) by (intros HXX; specialize (Hone HXX); now inversion Hone).
      destruct (IH (pos src L2) evs2 ss2 L2 stk2 l (lint_next (mkF (mkPst (inner ++ L2) l b) stk2 None)) (errs ++ [e])) as [E|(more & fs' & E & Em)].
      * exact H2.
      * unfold lint_next. cbn [f_p p_toks p_line p_byte f_stack]. rewrite until_mode_inner, (until_mode_run cx _ evs2 ss2 _ H2) by assumption. exists b. now right.
      * destruct Hre' as (pre & Epre & Hl). exists pre. split; [exact Epre|]. intros HXX. auto.
      * lia.
      * intros HXX. specialize (Hone HXX). now inversion Hone.
      * left. exact E.
      * right. exists (e :: more), fs'. rewrite E, <- app_assoc. split; [reflexivity|]. constructor; [|exact Em].
        eapply located_weaken; [|exact Hloc]. auto.
  - right. exists [], fs1. rewrite app_nil_r. split; [reflexivity|]. rewrite Ht. constructor.
Qed.
Lemma parse_verdict : forall fuel p evs ss L stk line fs acc, run p evs ss L -> fs_at L stk line fs -> reached L line -> length L < fuel ->
  match mistakes p (names stk) evs ss with
  | [] => exists ns fs', parse_loop fuel cx acc fs = POk ns fs'
  | x :: _ => parse_loop fuel cx acc fs = PPanic PanErrorInfo
      \/ exists e fs', parse_loop fuel cx acc fs = PErr e fs' /\ located (px_env cx) (px_file cx) src base (X /\ on_one_line src x) x e
  end.
Proof.
  induction fuel as [|fuel IH]; intros p evs ss L stk line fs acc Hrun Hfs Hre Hf; [lia|].
  rewrite SynBlock.parse_loop_eq. pose proof (top_out p evs ss L stk line fs Hrun Hfs Hre) as Ht. destruct (ftoken fs) as [[t|] fs1]; cbn [fst snd] in *.
  - destruct Ht as [(nd & fs2 & L2 & stk2 & q2 & evs2 & ss2 & l2 & H1 & H2 & _ & H4 & H5 & H6 & H7)|[(fs2 & H1 & H2)|(k & T2 & L2 & stk2 & q2 & evs2 & ss2 & l2 & H1 & H2 & H3 & H4 & H5)]].
    + rewrite H1, H7. cbn [pbind]. eapply IH; [exact H4|exact H2|exact H5|lia].
    + rewrite H1, H2. cbn [pbind]. now eexists _, _.
    + pose proof (run_pos _ _ _ _ _ H2) as Eq. subst q2. rewrite H5.
      destruct (rejected_located _ _ _ _ _ _ H1 H3) as [-> |(inner & l & b & e & -> & Hin & Hloc & Hre')]; [now left|].
      right. cbn [pbind]. now eexists _, _.
  - rewrite Ht. now eexists _, _.
Qed.
End Run.

(** ** Whole sources *)
Lemma at_whole src : at_ src 0 src.
Proof. exists [], []. rewrite app_nil_r. split; reflexivity. Qed.
Lemma source_tokens pe evs ss name : pieces_of pe evs ss -> exists L, lex (concat ss) = Some L /\ run (mkPctx pe (concat ss) name) 0 evs ss L.
Proof.
  intros (Hok & Hw). destruct (source_run pe evs false ss Hok Hw 0) as (L & HL & Hrun). exists L. split.
  - now apply lex_unique.
  - apply Hrun; [reflexivity|apply at_whole|reflexivity].
Qed.
Lemma lex_sound s L : lex s = Some L -> sound s L.
Proof. intros E. split; [now apply lex_good|]. split; [now apply (lex_chain s)|now apply lex_slashed]. Qed.
Lemma counted_lines s L : lex s = Some L -> counted s -> clean L /\ forall q, nlat L q = newlines_before 0 s q.
Proof.
  intros E H. destruct (counted_clean _ (H _ E)) as [Hc Hk]. split; [exact Hc|]. intros q. apply tokenizes_lines with (m := MBlock); [now apply lex_tokenizes|exact Hk].
Qed.
Lemma lint_located pe evs ss name : pieces_of pe evs ss -> let s := concat ss in
  lint pe name s = PPanic PanErrorInfo \/ exists errs fs, lint pe name s = POk errs fs
    /\ Forall2 (located pe name s 0 (counted s /\ Forall (on_one_line s) (mistakes 0 [] evs ss))) (mistakes 0 [] evs ss) errs.
Proof.
  intros H s. destruct (source_tokens pe evs ss name H) as (L & E & Hrun). unfold lint. fold s in E, Hrun. rewrite E.
  apply (lint_verdict (mkPctx pe s name) L 0 (counted s /\ Forall (on_one_line s) (mistakes 0 [] evs ss)) (lex_sound _ _ E)) with (fuel := S (length L)) (L := L) (stk := []) (line := 0) (errs := []); try exact Hrun.
  - intros [Hc _]. now apply (counted_lines s).
  - intros [Hc _]. now apply (counted_lines s).
  - exists 0. now left.
  - exists []. split; [reflexivity|]. intros _. reflexivity.
  - lia.
  - intros [_ Ho]. exact Ho.
Qed.
Lemma compile_located pe evs ss o : pieces_of pe evs ss -> let s := concat ss in
  match mistakes 0 [] evs ss with
  | [] => exists n fs, compile pe o s = POk n fs
  | x :: _ => compile pe o s = PPanic PanErrorInfo
      \/ exists e fs, compile pe o s = PErr e fs /\ located pe (po_file o) s (po_line o) (counted s /\ on_one_line s x) x e
  end.
Proof.
  intros H s. destruct (source_tokens pe evs ss (po_file o) H) as (L & E & Hrun). unfold compile. fold s in E, Hrun. rewrite E. cbv zeta.
  assert (Hp : let cx := mkPctx pe s (po_file o) in match mistakes 0 [] evs ss with
    | [] => exists ns fs', parse_loop (S (length L)) cx [] (mkF (mkPst L (po_line o) (po_byte o)) [] None) = POk ns fs'
    | x :: _ => parse_loop (S (length L)) cx [] (mkF (mkPst L (po_line o) (po_byte o)) [] None) = PPanic PanErrorInfo
        \/ exists e fs', parse_loop (S (length L)) cx [] (mkF (mkPst L (po_line o) (po_byte o)) [] None) = PErr e fs' /\ located pe (po_file o) s (po_line o) (counted s /\ on_one_line s x) x e
    end).
  { intros cx. refine (parse_verdict cx L (po_line o) (counted s) (lex_sound _ _ E) _ _ (S (length L)) 0 evs ss L [] (po_line o) _ [] Hrun _ _ _).
    - intros Hc. now apply (counted_lines s).
    - intros Hc. now apply (counted_lines s).
    - exists (po_byte o). now left.
    - exists []. split; [reflexivity|]. intros _. cbn. lia.
    - lia. }
  cbv zeta in Hp. destruct (mistakes 0 [] evs ss) as [|x xs].
  - destruct Hp as (ns & fs & ->). cbn [pbind]. now eexists _, _.
  - destruct Hp as [-> |(e & fs & -> & Ek)]; [now left|right]. cbn [pbind]. now eexists _, _.
Qed.
(** ** Without the places *)
Lemma verdict_cons open e evs : verdict open (e :: evs) = verdict open [e] ++ verdict (open_after open e) evs.
Proof. destruct e as [i|c m|p c m|m c|k|o|k]; try reflexivity. destruct open as [|o open]; [reflexivity|]. cbn. destruct (simple_name c) as [w|]; [|reflexivity]. destruct (streq o w); reflexivity. Qed.
Lemma mistakes_verdict evs : forall p open ss, length evs = length ss -> map fst (mistakes p open evs ss) = verdict open evs.
Proof.
  induction evs as [|e evs IH]; intros p open [|s ss] H; try discriminate; [reflexivity|]. rewrite verdict_cons. cbn [mistakes]. rewrite map_app, map_map. cbn [fst]. rewrite map_id. f_equal.
  apply IH. now injection H.
Qed.
Lemma located_error pe file s l0 P x e : located pe file s l0 P x e -> error_for pe file s (fst x) e.
Proof. intros (H1 & line & byte & H2 & _). split; [exact H1|]. now exists line, byte. Qed.
Lemma pieces_length pe evs ss : pieces_of pe evs ss -> length evs = length ss.
Proof. intros (_ & H). induction H; cbn; congruence. Qed.
Lemma lint_of pe evs s name : source_of pe evs s ->
  lint pe name s = PPanic PanErrorInfo \/ exists errs fs, lint pe name s = POk errs fs /\ Forall2 (error_for pe name s) (verdict [] evs) errs.
Proof.
  intros (ss & H & ->). destruct (lint_located pe evs ss name H) as [E|(errs & fs & E & He)]; [now left|right]. exists errs, fs. split; [exact E|].
  rewrite <- (mistakes_verdict evs 0 [] ss (pieces_length _ _ _ H)). clear E. induction He as [|x e xs es Hx _ IH]; [constructor|]. constructor; [|exact IH]. eapply located_error, Hx.
Qed.
Lemma compile_of pe evs s o : source_of pe evs s ->
  match verdict [] evs with
  | [] => exists n fs, compile pe o s = POk n fs
  | k :: _ => compile pe o s = PPanic PanErrorInfo \/ exists e fs, compile pe o s = PErr e fs /\ error_for pe (po_file o) s k e
  end.
Proof.
  intros (ss & H & ->). pose proof (compile_located pe evs ss o H) as Hp. rewrite <- (mistakes_verdict evs 0 [] ss (pieces_length _ _ _ H)). cbv zeta in Hp.
  destruct (mistakes 0 [] evs ss) as [|x xs]; cbn [map]; [exact Hp|]. destruct Hp as [E|(e & fs & E & He)]; [now left|right]. exists e, fs. split; [exact E|]. eapply located_error, He.
Qed.
