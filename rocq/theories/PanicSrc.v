(** * PanicSrc: compiled templates are safe to render when their closing tags are readable; ASCII sources and
    printed documents are readable. *)
From Coq Require Import Lia String Permutation.
From Verif Require Import Str Regex Lexer Json Ast ErrInfo Parser Render Spec_Lexer Spec_Ast StrFacts RegexFacts LexerFacts
  ParserFacts CallFacts ArgFacts LeafFacts TreeFacts BlockFacts DocFacts DocProps EvalFacts TermFacts Spec_Source SynBlock Spec_Panic PanicFacts.
Open Scope nat_scope. Open Scope list_scope.

(** ** ASCII text *)
Lemma ascii_app a b : ascii (a ++ b) <-> ascii a /\ ascii b.
Proof. apply Forall_app. Qed.
Lemma ascii_bnd s n : ascii s -> n <= blen s -> bnd s n.
Proof.
  intros H Hn. exists (firstn n s), (skipn n s). split; [symmetry; apply firstn_skipn|].
  rewrite (ascii_blen s H) in Hn. rewrite ascii_blen, firstn_length; [lia|]. rewrite <- (firstn_skipn n s) in H. apply ascii_app in H. apply H.
Qed.
Lemma ascii_slice s a b : ascii s -> a <= b <= blen s -> slice s a b <> None.
Proof. intros H Hb. destruct (slice_some s a b) as (m & ->); try (apply ascii_bnd; [exact H | lia]); [lia | discriminate]. Qed.
Lemma ascii_tilde s i : ascii s -> tilde_at s i <> None.
Proof.
  intros H. unfold tilde_at. destruct (i <? blen s) eqn:E; [|discriminate]. apply Nat.ltb_lt in E.
  pose proof (ascii_slice s i (i + 1) H ltac:(lia)) as X. destruct (slice s i (i + 1)); [discriminate | congruence].
Qed.
Lemma slice_ascii s a b w : ascii s -> slice s a b = Some w -> ascii w.
Proof. intros H E. apply slice_inv in E. destruct E as (p & q & -> & _). apply ascii_app in H. destruct H as [_ H]. apply ascii_app in H. apply H. Qed.

(** ** The opening tokens are ASCII *)
Inductive are : re -> Prop :=
| are_empty : are REmpty
| are_eps : are REps
| are_chr f : (forall c, f c = true -> (c < 128)%N) -> are (RChr f)
| are_cat a b : are a -> are b -> are (RCat a b)
| are_alt a b : are a -> are b -> are (RAlt a b)
| are_star a : are a -> are (RStar a).
Lemma are_lang r w : lang r w -> are r -> ascii w.
Proof.
  induction 1; intros Hr; inversion Hr; subst; try (constructor; fail); auto.
  - constructor; [auto | constructor].
  - apply ascii_app. auto.
  - apply ascii_app. auto.
Qed.
Lemma are_lit s : ascii s -> are (RLit s).
Proof.
  induction 1 as [|c s Hc Hs IH]; [constructor|]. assert (H1 : are (RChr (N.eqb c))) by (constructor; intros x E; apply N.eqb_eq in E; subst x; exact Hc).
  destruct s; [exact H1 | constructor; assumption].
Qed.
Lemma are_class l : ascii l -> are (RChr (class l)).
Proof.
  intros H. constructor. intros c E. unfold class in E. apply existsb_exists in E. destruct E as (x & Hx & E). apply N.eqb_eq in E. subst x.
  unfold ascii in H. rewrite Forall_forall in H. apply (H c Hx).
Qed.
Lemma block_pats r k : In (r, TBlock k) (pats MBlock) -> is_text (TBlock k) = false -> are r.
Proof.
  intros H Hk. cbn [pats] in H. apply in_map_iff in H. destruct H as ([r' k'] & E & Hin). cbn [fst snd] in E. injection E as -> ->.
  unfold pats_block in Hin. 
  assert (Hc : forall x, Forall (fun c => (c < 128)%N) (lit x) -> are (ch x)) by (intros x; apply are_lit).
  assert (Hb : are blanks) by (constructor; apply are_class; repeat constructor).
  assert (Ho : forall a, are a -> are (ROpt a)) by (intros a Ha; constructor; [constructor | exact Ha]).
  repeat (destruct Hin as [E|Hin]; [injection E as <- <-; try discriminate Hk;
    repeat first [exact Hb | apply Ho | apply Hc; vm_compute; repeat constructor | apply are_cat]|]).
  destruct Hin.
Qed.
Lemma opener_text src toks sp : lex src = Some toks -> opener toks sp ->
  exists p w q, src = p ++ w ++ q /\ blen p = fst sp /\ snd sp = fst sp + blen w /\ ascii w /\ w <> [].
Proof.
  intros Hl (t & Hin & <- & Hk & Ht).
  assert (Hne : t_kind t <> err_kind (kind_mode (t_kind t))).
  { intros E. destruct (lex_errors src toks t Hl Hin E) as [H _]. apply H. rewrite Hk. left. reflexivity. }
  destruct (tokenizes_lang _ _ _ _ (lex_tokenizes _ _ Hl) Hin Hne) as (p & w & q & r & E1 & E2 & E3 & Hr & Hw).
  rewrite Hk in Hr. pose proof (good_in _ _ _ (lex_good _ _ Hl) Hin) as (_ & _ & Hlt & _).
  exists p, w, q. split; [exact E1|]. split; [exact E2|]. split; [exact E3|]. split.
  - apply (are_lang r w Hw). destruct (t_kind t) as [k|k|k|k|k|k|k|k|k]; try discriminate Hk. apply (block_pats r k Hr Ht).
  - intros ->. simpl in E3. lia.
Qed.
Lemma opener_slice src toks sp : lex src = Some toks -> opener toks sp -> exists w, sl src sp = Some w /\ ascii w /\ w <> [].
Proof.
  intros Hl Ho. destruct (opener_text _ _ _ Hl Ho) as (p & w & q & -> & E1 & E2 & Ha & Hw). exists w. split; [|split; assumption].
  unfold sl. rewrite E2, <- E1. apply slice_mid.
Qed.
Lemma opener_next src toks sp : lex src = Some toks -> opener toks sp -> bnd src (fst sp + 1) /\ fst sp + 1 <= snd sp.
Proof.
  intros Hl Ho. destruct (opener_text _ _ _ Hl Ho) as (p & w & q & -> & E1 & E2 & Ha & Hw). destruct w as [|c w]; [congruence|].
  inversion Ha as [|? ? Hc _]; subst. simpl in E2. rewrite (ascii_clen c Hc) in E2. split; [|lia]. exists (p ++ [c]), (w ++ q).
  split; [rewrite <- app_assoc; reflexivity|]. rewrite blen_app. simpl. rewrite (ascii_clen c Hc). lia.
Qed.

(** ** Compiled trees *)
Lemma flat_in {A B C} (f : A -> list B) (g : A -> list C) (Q : B -> C -> Prop) l :
  Forall (fun x => forall b c, In b (f x) -> Q b c -> In c (g x)) l -> forall b c, In b (flat_map f l) -> Q b c -> In c (flat_map g l).
Proof.
  intros H b c Hb Hq. apply in_flat_map in Hb. destruct Hb as (x & Hx & Hb). apply in_flat_map. exists x. split; [exact Hx|].
  rewrite Forall_forall in H. exact (H x Hx b c Hb Hq).
Qed.
Definition has_leaf (fb : bool * block) (m : node) : Prop := In m (flat_map node_leaves (b_nodes (snd fb))).
Fixpoint leaves_in (n : node) : forall g fb m, In fb (node_blocks g n) -> has_leaf fb m -> In m (node_leaves n)
with leaves_in_block (b : block) : forall g fb m, In fb (block_blocks g b) -> has_leaf fb m -> In m (block_leaves b).
Proof.
  - destruct n as [l|t|c|b|t|t|t|l]; intros g fb m Hb Hm; try (destruct Hb; fail).
    + cbn [node_blocks node_leaves] in *. eapply (flat_in (node_blocks false) node_leaves has_leaf); [|exact Hb|exact Hm].
      clear -leaves_in. induction l as [|x l IH]; constructor; [exact (leaves_in x false) | exact IH].
    + exact (leaves_in_block b g fb m Hb Hm).
  - destruct b as [ns r o cl c cs ln]; intros g fb m Hb Hm. cbn [block_blocks block_leaves] in *. apply in_or_app.
    destruct Hb as [<-|Hb]; [left; exact Hm|]. apply in_app_or in Hb. destruct Hb as [Hb|Hb].
    + left. eapply (flat_in (node_blocks false) node_leaves has_leaf); [|exact Hb|exact Hm].
      clear -leaves_in. induction ns as [|x l IH]; constructor; [exact (leaves_in x false) | exact IH].
    + right. eapply (flat_in (node_blocks true) node_leaves has_leaf); [|exact Hb|exact Hm].
      clear -leaves_in. induction cs as [|x l IH]; constructor; [exact (leaves_in x true) | exact IH].
Qed.
Lemma compiled_safe pl reg o src n fs : compile (pl_penv pl) o src = POk n fs -> readable pl reg src n -> safe pl reg src n.
Proof.
  intros H [R1 R2]. destruct (compile_leaves _ _ _ _ _ H) as (toks & q & Hl & H1 & H2). rewrite Forall_forall in H1, H2.
  split; apply Forall_forall.
  - intros x Hx. specialize (R2). destruct (H1 x Hx) as (S1 & S2 & _ & S4). specialize (R2).
    destruct x as [l|t|c|b|t|t|t|l]; cbn [leaf_safe]; try exact I.
    + cbn [leaf_spans] in S1. inversion S1 as [|? ? S _]; subst. destruct (sp_in_slice _ _ _ _ S) as (v & E). unfold text_str. rewrite E. discriminate.
    + exists 0, q. split; assumption.
    + cbn [leaf_spans text_block_spans leaf_tags lead_fact] in S1, S2, S4. inversion S1 as [|? ? _ S']; subst. inversion S' as [|? ? So S'']; subst.
      inversion S'' as [|? ? Sc _]; subst. inversion S2 as [|? ? Tg _]; subst. unfold tag_ok in Tg. cbn [fst snd] in Tg.
      destruct So as ((V1 & V2 & V3) & _). destruct Sc as ((W1 & W2 & W3) & _).
      destruct (opener_next _ _ _ Hl S4) as [B1 B2].
      destruct (slice_some src (fst (tb_open t)) (fst (tb_open t) + 1) V1 B1 ltac:(lia)) as (w1 & E1).
      destruct (slice_some src (fst (tb_open t) + 1) (snd (tb_close t)) B1 W2 ltac:(lia)) as (w2 & E2).
      exists (w1 ++ w2). split; [exact (slice_app _ _ _ _ _ _ E1 E2)|]. pose proof (slice_len _ _ _ _ E1) as L.
      pose proof (slice_mid w1 w2 []) as M. rewrite app_nil_r in M. rewrite blen_app. replace 1 with (blen w1) by lia. rewrite M. discriminate.
    + cbn [leaf_spans leaf_tags lead_fact] in S1, S2, S4. destruct S4 as [(tk & Hin & Etk & Ktk) Hcl]. unfold link_spans in S1.
      assert (S4 : opener toks (lk_open l)) by (exists tk; rewrite Ktk; repeat split; assumption).
      destruct (lk_close l) as [cl|] eqn:Ecl; [|congruence]. cbn [opt_list app tag_pair] in S1, S2.
      inversion S1 as [|? ? So S']; subst. inversion S' as [|? ? Sc S'']; subst. inversion S'' as [|? ? Sh _]; subst.
      inversion S2 as [|? ? Tg _]; subst. unfold tag_ok in Tg. cbn [fst snd] in Tg.
      destruct So as ((V1 & V2 & V3) & _). destruct Sc as ((W1 & W2 & W3) & _).
      destruct (opener_next _ _ _ Hl S4) as [B1 B2]. destruct (opener_slice _ _ _ Hl S4) as (w & Ew & _).
      unfold link_is_escaped in *. rewrite Ew. destruct (starts_with [92%N] w) eqn:Es.
      * unfold link_after_escape, link_close_end. rewrite Ecl. destruct (slice_some src (fst (lk_open l) + 1) (snd cl) B1 W2 ltac:(lia)) as (w2 & ->). discriminate.
      * split.
        -- unfold link_str, link_close_end. rewrite Ecl. destruct (slice_some src (fst (lk_open l)) (snd cl) V1 W2 ltac:(lia)) as (w2 & ->). discriminate.
        -- intros Hh. split.
           ++ unfold link_href. destruct (lk_href l); [discriminate|]. destruct (sp_in_slice _ _ _ _ Sh) as (v & ->). discriminate.
           ++ apply (R2 Hh l Hx). unfold link_is_escaped. rewrite Ew, Es. reflexivity.
  - intros [f b] Hb. cbn [snd]. destruct (H2 _ Hb) as (S1 & S2 & S3 & S4 & S5 & S6). cbn [fst snd] in *.
    apply Forall_app in S2. destruct S2 as [S2 S2']. unfold block_own_spans in S1. cbn [fst snd] in S1. inversion S1 as [|? ? So S1']; subst.
    apply Forall_app in S1'. destruct S1' as [Sc _].
    assert (Hc : call_safe src (b_call b)) by (exists 0, q; split; assumption).
    split; [|split; [exact (R1 f b Hb)|split; [exact Hc|]]].
    + destruct (opener_slice _ _ _ Hl S4) as (w & Ew & Ha & _). cbn [node_trim]. unfold hint2, block_trim_before, block_open_str, block_trim_after, call_trim_after.
      rewrite Ew. pose proof (ascii_tilde w (if b_raw b then 4 else 2) Ha) as Ht. destruct (tilde_at _ _); [|congruence].
      apply call_parts in Hc. destruct Hc as (_ & Hc & _). destruct (call_close_str src (b_call b)); [discriminate | congruence].
    + intros Hr. destruct f; [rewrite (S5 eq_refl) in Hr; discriminate|]. destruct (S3 eq_refl) as [_ Hf]. rewrite Hr in Hf.
      destruct Hf as [(tx & e & cl & En & _) _]. rewrite En. cbn [node_str].
      assert (Hin : In (NText tx) (node_leaves n)).
      { apply (leaves_in n _ _ _ Hb). unfold has_leaf. cbn [snd]. rewrite En. left. reflexivity. }
      destruct (H1 _ Hin) as (X & _). cbn [leaf_spans] in X. inversion X as [|? ? S _]; subst. destruct (sp_in_slice _ _ _ _ S) as (v & E). unfold text_str. rewrite E. discriminate.
Qed.

(** ** ASCII sources *)
Lemma compile_within env o src n fs : compile env o src = POk n fs ->
  exists toks q, q <= blen src /\ lex src = Some toks
    /\ Forall (leaf_good src toks (po_line o) 0 q) (node_leaves n)
    /\ Forall (block_good src toks (po_line o) 0 q) (node_blocks false n).
Proof.
  intros H. destruct (compile_doc _ _ _ _ _ H) as (toks & ns & Hl & -> & q & _ & Hn & Hq).
  exists toks, q. split; [|split; [exact Hl|]].
  - destruct Hq as [[-> _]|(t & Hin & <- & _)]; [lia|]. pose proof (good_in _ _ _ (lex_good _ _ Hl) Hin) as (_ & H2 & H3 & _).
    apply bnd_le in H2. lia.
  - cbn [node_leaves node_blocks]. split; apply Forall_flat_map; (eapply Forall_impl; [|exact Hn]); intros x [X Y]; assumption.
Qed.
Lemma start_link src toks l : lex src = Some toks ->
  (exists t, In t toks /\ tspan t = lk_open l /\ t_kind t = TBlock BStartLink) -> occurs (lit "[[") src.
Proof.
  intros Hl (t & Hin & _ & Hk).
  assert (Hne : t_kind t <> err_kind (kind_mode (t_kind t))) by (rewrite Hk; discriminate).
  destruct (tokenizes_lang _ _ _ _ (lex_tokenizes _ _ Hl) Hin Hne) as (p & w & q & r & E1 & _ & _ & Hr & Hw).
  rewrite Hk in Hr. cbn [kind_mode pats] in Hr. apply in_map_iff in Hr. destruct Hr as ([r' k'] & E & Hin'). cbn [fst snd] in E. injection E as -> ->.
  assert (Er : r = RCat (ROpt (ch "\")) (ch "[[")).
  { unfold pats_block in Hin'. repeat (destruct Hin' as [E|Hin']; [try discriminate E; injection E as <-; reflexivity|]). destruct Hin'. }
  subst r. inversion Hw as [| |a b u v _ Hv| | | |]; subst. apply lang_lit in Hv. subst v. exists (p ++ u), q. rewrite <- !app_assoc. reflexivity.
Qed.
Lemma ascii_readable pl reg o s n fs : ascii s -> (link_handler pl reg -> ~ occurs (lit "[[") s) ->
  compile (pl_penv pl) o s = POk n fs -> readable pl reg s n.
Proof.
  intros Ha Hno H. destruct (compile_within _ _ _ _ _ H) as (toks & q & Hq & Hl & H1 & H2). rewrite Forall_forall in H1, H2. split.
  - intros f b Hb. destruct (H2 _ Hb) as (_ & _ & _ & _ & _ & Hc). cbn [snd] in Hc.
    assert (Hs : exists w, block_close_str s b = Some w /\ ascii w).
    { unfold block_close_str. destruct (b_close b) as [cl|]; [|exists []; split; [reflexivity|constructor]]. specialize (Hc cl eq_refl).
      pose proof (ascii_slice s (fst cl) (snd cl) Ha ltac:(lia)) as X. unfold sl. destruct (slice s (fst cl) (snd cl)) as [w|] eqn:E; [|congruence].
      exists w. split; [reflexivity | exact (slice_ascii _ _ _ _ Ha E)]. }
    destruct Hs as (w & Ew & Hw). unfold block_trim_close, hint2, block_trim_before_close, block_trim_after_close. rewrite Ew. cbv zeta.
    pose proof (ascii_tilde w (if b_raw b then 4 else 2) Hw) as X. destruct (tilde_at w _); [|congruence].
    set (k := if b_raw b then 5 else 3). assert (Hk : 1 <= k) by (unfold k; destruct (b_raw b); lia). destruct (k <? blen w) eqn:E; [|discriminate]. apply Nat.ltb_lt in E.
    pose proof (ascii_slice w (blen w - k) (blen w - k + 1) Hw ltac:(lia)) as Y. destruct (slice w _ _); [discriminate | congruence].
  - intros Hh l Hin _. exfalso. apply (Hno Hh). destruct (H1 _ Hin) as (_ & _ & _ & S4). cbn [lead_fact] in S4. destruct S4 as [S4 _]. exact (start_link _ _ _ Hl S4).
Qed.

(** ** Printed documents *)
Definition legible (src : str) (n : node) : Prop :=
  (forall g f b, In (f, b) (node_blocks g n) -> block_trim_close src b <> None)
  /\ (forall l, In (NLink l) (node_leaves n) -> link_label src l <> None /\ link_title src l <> None).
Lemma legible_list src l : Forall (legible src) l ->
  (forall g f b, In (f, b) (flat_map (node_blocks g) l) -> block_trim_close src b <> None)
  /\ (forall k, In (NLink k) (flat_map node_leaves l) -> link_label src k <> None /\ link_title src k <> None).
Proof.
  intros H. rewrite Forall_forall in H. split.
  - intros g f b Hb. apply in_flat_map in Hb. destruct Hb as (x & Hx & Hb). exact (proj1 (H x Hx) g f b Hb).
  - intros k Hk. apply in_flat_map in Hk. destruct Hk as (x & Hx & Hk). exact (proj2 (H x Hx) k Hk).
Qed.
Lemma legible_block src b : block_trim_close src b <> None -> Forall (legible src) (b_nodes b) -> Forall (legible src) (b_conds b) -> legible src (NBlock b).
Proof.
  intros Ht Hn Hc. apply legible_list in Hn. apply legible_list in Hc. destruct Hn as [N1 N2]. destruct Hc as [C1 C2].
  destruct b as [ns r o cl c cs ln]. cbn [b_nodes b_conds] in *. split.
  - intros g f b Hb. cbn [node_blocks block_blocks] in Hb. destruct Hb as [E|Hb]; [injection E as _ <-; exact Ht|].
    apply in_app_or in Hb. destruct Hb as [Hb|Hb]; [exact (N1 _ _ _ Hb) | exact (C1 _ _ _ Hb)].
  - intros k Hk. cbn [node_leaves block_leaves] in Hk. apply in_app_or in Hk. destruct Hk as [Hk|Hk]; [exact (N2 _ Hk) | exact (C2 _ Hk)].
Qed.
Lemma Forall2_legible pe src l : Forall (fun x => forall i, node_is Loose pe src x i -> legible src x) l -> forall d, Forall2 (node_is Loose pe src) l d -> Forall (legible src) l.
Proof.
  induction 1 as [|x l Hx Hl IH]; intros d Hd; [constructor|]. inversion Hd; subst. constructor; [eapply Hx; eassumption | eapply IH; eassumption].
Qed.
Fixpoint printed_legible (pe : penv) (src : str) (n : node) : forall i, node_is Loose pe src n i -> legible src n.
Proof.
  assert (Hleaf : forall m, node_leaves m = [m] -> (forall g, node_blocks g m = []) -> (forall l, m <> NLink l) -> legible src m).
  { intros m E1 E2 E3. split; [intros g f b; rewrite E2; intros []|]. intros l Hl. rewrite E1 in Hl. destruct Hl as [E|[]]. destruct (E3 l E). }
  destruct n as [l|t|c|b|t|t|t|l]; intros i H; try (apply Hleaf; [reflexivity | intros g; reflexivity | intros; discriminate]).
  - inversion H.
  - destruct b as [ns r o cl c cs ln].
    assert (HN : Forall (fun x => forall i, node_is Loose pe src x i -> legible src x) ns).
    { clear -printed_legible. induction ns as [|x l IH]; constructor; [exact (printed_legible pe src x) | exact IH]. }
    assert (HC : Forall (fun x => match x with NBlock b => Forall (fun x => forall i, node_is Loose pe src x i -> legible src x) (b_nodes b) | _ => True end) cs).
    { clear -printed_legible. induction cs as [|x l IH]; constructor; [|exact IH]. destruct x as [ | | |[ns r o cl c cs ln]| | | | ]; try exact I.
      cbn [b_nodes]. clear IH l. induction ns as [|x l IH]; constructor; [exact (printed_legible pe src x) | exact IH]. }
    clear printed_legible. inversion H as [| | | | | | |b x m s m' t0 u0 H1 H2 H3 H4 H5 H6 H7 H8|b p x m body branches m' u0 H1 H2 H3 H4 H5 H6 H7]; subst; apply legible_block.
    + rewrite H7. discriminate.
    + rewrite H3. constructor; [|constructor]. apply Hleaf; [reflexivity | intros g; reflexivity | intros; discriminate].
    + rewrite H5. constructor.
    + rewrite H6. discriminate.
    + exact (Forall2_legible pe src _ HN _ H3).
    + cbn [b_conds] in H4 |- *. clear -HC H4. induction H4 as [|b cond m body bs rest m' G1 G2 G3 G4 G5 G6 G7 IH]; [constructor|].
      inversion HC as [|? ? HC1 HC2]; subst. constructor; [|exact (IH HC2)]. apply legible_block.
      * rewrite G6. destruct rest; discriminate.
      * exact (Forall2_legible pe src _ HC1 _ G4).
      * rewrite G3. constructor.
  - inversion H as [| | | | | |k esc parts Hk| |]; subst. split; [intros g f b []|]. intros k [E|[]]. injection E as <-.
    destruct Hk as (_ & _ & _ & _ & E1 & E2). rewrite E1, E2. split; discriminate.
Qed.
Lemma doc_readable pl reg o d s n fs : Spec_Source.doc_ok (pl_penv pl) d -> doc_writes Loose d s ->
  compile (pl_penv pl) o s = POk n fs -> readable pl reg s n.
Proof.
  intros Hd Hs H. destruct (compile_printed Loose _ o d s Hd Hs) as (ns & fs' & E & Hn). rewrite H in E. injection E as -> <-.
  assert (HF : Forall (legible s) ns).
  { eapply Forall2_legible; [|exact Hn]. apply Forall_forall. intros x _ i. apply printed_legible. }
  apply legible_list in HF. destruct HF as [F1 F2]. split.
  - intros f b Hb. exact (F1 _ _ _ Hb).
  - intros _ l Hl _. exact (F2 l Hl).
Qed.
Lemma sound_readable pl reg o s n fs : sound_source pl reg s -> compile (pl_penv pl) o s = POk n fs -> readable pl reg s n.
Proof.
  intros [[Ha Hl]|(d & Hd & Hs)] H; [exact (ascii_readable pl reg o s n fs Ha Hl H) | exact (doc_readable pl reg o d s n fs Hd Hs H)].
Qed.
