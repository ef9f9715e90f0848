(** * DocFacts: proofs about whole documents: src/parser/mod.rs [parse], src/template.rs [compile] and
    src/registry.rs [lint]. *)
From Coq Require Import Lia String.
From Verif Require Import Str Lexer Json Ast ErrInfo Parser Spec_Lexer Spec_Ast StrFacts RegexFacts LexerFacts
  ParserFacts CallFacts ArgFacts LeafFacts TreeFacts BlockFacts.
Open Scope nat_scope. Open Scope list_scope.

(** ** The stack is empty again after a top-level node *)
Lemma block_loop_stack cx : forall fuel fs n fs', block_loop fuel cx fs = POk (Some n) fs' -> f_stack fs' = [].
Proof.
  induction fuel as [|fuel IH]; intros fs n fs' H; [discriminate|]. rewrite block_loop_eq in H.
  destruct (fst (ftoken fs)) as [t|]; [|discriminate].
  destruct (advance fuel cx t (snd (ftoken fs))) as [[m|] f2|e f2|p|]; cbn [pbind] in H; try discriminate.
  destruct (f_stack f2) as [|[nm b] stk] eqn:E; [|eapply IH, H]. injection H as <- <-. exact E.
Qed.
Lemma advance_stack fuel cx t fs n fs' : f_stack fs = [] -> advance fuel cx t fs = POk (Some n) fs' -> f_stack fs' = [].
Proof.
  intros Hs H. destruct fuel as [|fuel]; [discriminate|]. rewrite advance_eq in H. cbv zeta in H. rewrite Hs in H.
  set (st := if is_newline (t_kind t) then inc_line (f_p fs) else f_p fs) in *. clearbody st.
  assert (Hlift : forall A (m : pres pst A) w, (let! (x, f) := lift m [] (f_next fs) in POk (Some (w x)) f) = POk (Some n) fs' -> f_stack fs' = []).
  { intros A m w E. destruct m; cbn [lift pbind] in E; try discriminate. injection E as _ <-. reflexivity. }
  destruct (is_text (t_kind t)).
  - destruct (until _ _ _ _ _) as [[sp nx] st']. injection H as <- <-. reflexivity.
  - destruct (t_kind t) as [b|q|q|q|k|q|q|q|q]; try discriminate.
    destruct b; try discriminate.
    + apply (Hlift _ _ (fun x => x) H).
    + apply (Hlift _ _ (fun x => x) H).
    + apply (Hlift _ _ (fun x => x) H).
    + apply (Hlift _ _ (fun x => x) H).
    + apply (Hlift _ _ NStmt H).
    + destruct (lift (scope cx (tspan t) st) [] (f_next fs)) as [bl f|e f|p|]; cbn [pbind] in H; try discriminate.
      destruct (block_name (px_src cx) bl) as [[name|]|]; try discriminate.
      * destruct (c_target (b_call bl)); [eapply block_loop_stack, H|].
        destruct (c_partial (b_call bl)); [eapply block_loop_stack, H|].
        unfold perr, perr_n in H. destruct (err_info _ _ _ _ _ _); discriminate.
      * unfold perr, perr_n in H. destruct (err_info _ _ _ _ _ _); discriminate.
    + apply (Hlift _ _ NLink H).
    + destruct (lift (scope cx (tspan t) st) [] (f_next fs)) as [bl f|e f|p|]; cbn [pbind] in H; try discriminate.
      destruct (block_name (px_src cx) bl) as [cn|]; try discriminate.
      unfold perr_n in H. destruct (err_info _ _ _ _ _ _); discriminate.
Qed.

(** ** Where parsing stops early *)
Definition stop_kind (k : tkind) : Prop :=
  match k with
  | TBlock BStartBlockScope | TBlock BEndRawBlock | TBlock BError => True
  | TBlock _ => False
  | _ => is_text k = false
  end.
Lemma advance_none fuel cx t fs fs' : advance fuel cx t fs = POk None fs' -> stop_kind (t_kind t).
Proof.
  intros H. destruct fuel as [|fuel]; [discriminate|]. rewrite advance_eq in H. cbv zeta in H.
  set (st := if is_newline (t_kind t) then inc_line (f_p fs) else f_p fs) in *. clearbody st.
  assert (Hlift : forall A (m : pres pst A) w stk nx, (let! (x, f) := lift m stk nx in POk (Some (w x)) f) <> POk (@None node) fs').
  { intros A m w stk nx E. destruct m; cbn [lift pbind] in E; discriminate. }
  unfold stop_kind. destruct (is_text (t_kind t)) eqn:Etx.
  - destruct (until _ _ _ _ _) as [[sp nx] st']. discriminate.
  - destruct (t_kind t) as [b|q|q|q|k|q|q|q|q]; try reflexivity; try exact Etx.
    destruct b; try exact I; try discriminate Etx; exfalso.
    + apply (Hlift _ _ (fun x => x) _ _ H).
    + apply (Hlift _ _ (fun x => x) _ _ H).
    + apply (Hlift _ _ (fun x => x) _ _ H).
    + apply (Hlift _ _ (fun x => x) _ _ H).
    + apply (Hlift _ _ NStmt _ _ H).
    + apply (Hlift _ _ NLink _ _ H).
    + destruct (lift (scope cx (tspan t) st) (f_stack fs) (f_next fs)) as [bl f|e f|p|]; cbn [pbind] in H; try discriminate.
      destruct (block_name (px_src cx) bl) as [cn|]; try discriminate.
      destruct (f_stack fs) as [|[on b] stk]; [unfold perr_n in H; destruct (err_info _ _ _ _ _ _); discriminate|].
      destruct cn as [cn|]; [|unfold perr, perr_n in H; destruct (err_info _ _ _ _ _ _); discriminate].
      destruct (streq on cn); [discriminate|]. unfold perr_n in H. destruct (err_info _ _ _ _ _ _); discriminate.
Qed.

(** ** The whole document *)
Definition doc_ok (src : str) (toks : list token) (base : nat) (ns : list node) (fs : fstate) : Prop :=
  exists q, nodes_tile src 0 q ns /\ Forall (node_good src toks base 0 q) ns
    /\ ((q = blen src /\ (clean toks -> p_line (f_p fs) = base + nlat toks (blen src)))
        \/ exists t, In t toks /\ t_start t = q /\ stop_kind (t_kind t)).

Lemma parse_loop_eq fuel cx acc fs : parse_loop (S fuel) cx acc fs =
  match fst (ftoken fs) with
  | None => POk acc (snd (ftoken fs))
  | Some t =>
      let! (n, fs) := advance (adv_fuel (snd (ftoken fs))) cx t (snd (ftoken fs)) in
      match n with
      | None => POk acc fs
      | Some node => parse_loop fuel cx (acc ++ [node]) fs
      end
  end.
Proof. cbn [parse_loop]. destruct (ftoken fs) as [[t|] fs']; reflexivity. Qed.

Lemma parse_loop_post cx toks base : let src := px_src cx in good src toks -> chain toks -> slashed src toks ->
  forall fuel acc fs, length (frest fs) < fuel -> f_stack fs = [] ->
  at_ toks base (frest fs) (p_line (f_p fs)) ->
  nodes_tile src 0 (pos src (frest fs)) acc -> Forall (node_good src toks base 0 (pos src (frest fs))) acc ->
  ppost (doc_ok src toks base) (fun _ => True) (parse_loop fuel cx acc fs).
Proof.
  intros src Hg Hc Hsl. induction fuel as [|fuel IH]; intros acc fs Hf Hstk Ha Ht Hn; [lia|].
  rewrite parse_loop_eq. pose proof (ftoken_rest fs) as Hft. destruct (ftoken fs) as [[t|] fs1]; cbn [fst snd].
  - destruct Hft as (E & En & Es & El). rewrite E in Hf, Ha, Ht, Hn. rewrite <- El in Ha. simpl in Hf, Ht, Hn.
    rewrite Hstk in Es.
    destruct (advance_post (adv_fuel fs1)) as [Hadv _]. specialize (Hadv cx toks base t fs1). cbv zeta in Hadv. fold src in Hadv.
    assert (Hf1 : 2 * length (p_toks (f_p fs1)) + 2 <= adv_fuel fs1) by (unfold adv_fuel; lia).
    specialize (Hadv Hf1 En Hg Hc Hsl Ha).
    destruct (advance (adv_fuel fs1) cx t fs1) as [[n|] fs2|e fs2|p|] eqn:Eadv; cbn [pbind]; try exact Hadv.
    + destruct Hadv as (R1 & R2 & R3). rewrite Es in R3. specialize (R3 (t_start t) eq_refl).
      rewrite (advance_stack _ _ _ _ _ _ Es Eadv) in R3. destruct R3 as (S1 & S2 & S3 & S4 & S5). cbn [sinv] in S1.
      apply IH; try assumption.
      * lia.
      * eapply advance_stack; eassumption.
      * eapply nodes_tile_snoc; [exact Ht | symmetry; exact S1 | rewrite S1; exact S3 | exact S4].
      * apply Forall_app. split.
        -- eapply Forall_impl; [|exact Hn]. intros x. apply node_good_mono; lia.
        -- constructor; [|constructor]. eapply node_good_mono; [| |exact S2]; lia.
    + cbn [ppost]. exists (t_start t). split; [exact Ht|]. split; [exact Hn|].
      right. exists t. split; [|split; [reflexivity | eapply advance_none, Eadv]].
      destruct Ha as (z & -> & _). apply in_elt.
    + exact I.
  - destruct Hft as [E ->]. rewrite E in Ht, Hn, Ha. cbn [ppost]. exists (blen src). split; [exact Ht|]. split; [exact Hn|].
    left. split; [reflexivity|]. intros C. apply (at_line src _ _ _ _ Hg Ha C).
Qed.

Lemma ends_with_app x s : ends_with s (x ++ s) = true.
Proof.
  unfold ends_with. rewrite rev_app_distr. generalize (rev x) as y. intros y.
  induction (rev s) as [|c r IH]; [reflexivity|]. simpl. rewrite N.eqb_refl. exact IH.
Qed.
Lemma lex_slashed src toks : lex src = Some toks -> slashed src toks.
Proof.
  intros H t Hin Hk.
  destruct (lex_token_lang src toks t H Hin) as (s1 & w & s2 & r & Es & E1 & E2 & Hr & Hl); [rewrite Hk; discriminate|].
  rewrite Hk in Hr. pats_cases Hr. injection Hr as <-.
  apply lang_cat_iff in Hl. destruct Hl as (x & y & -> & _ & Hl).
  apply lang_cat_iff in Hl. destruct Hl as (x2 & y2 & -> & _ & Hl).
  apply lang_cat_iff in Hl. destruct Hl as (x3 & y3 & -> & _ & Hl).
  apply lang_lit in Hl. subst y3.
  unfold unterminated, sl. cbn [tspan fst snd]. rewrite E2, <- E1, Es, slice_mid.
  rewrite !app_assoc. apply ends_with_app.
Qed.
Lemma lex_chain src toks : lex src = Some toks -> chain toks.
Proof. intros H. eapply tokenizes_chain, lex_tokenizes, H. Qed.

Lemma compile_post env o src toks : lex src = Some toks ->
  ppost (fun n fs => exists ns, n = NDoc ns /\ doc_ok src toks (po_line o) ns fs) (fun _ => True) (compile env o src).
Proof.
  intros Hl. unfold compile. rewrite Hl. cbv zeta.
  set (cx := mkPctx env src (po_file o)).
  set (fs0 := mkF (mkPst toks (po_line o) (po_byte o)) [] None).
  pose proof (lex_good _ _ Hl) as Hg.
  assert (Hp0 : pos src toks = 0).
  { destruct toks as [|t l] eqn:E; simpl.
    - pose proof (tokenizes_tiles _ _ _ _ (lex_tokenizes _ _ Hl)) as H. simpl in H. lia.
    - pose proof (tokenizes_tiles _ _ _ _ (lex_tokenizes _ _ Hl)) as H. simpl in H. apply H. }
  eapply ppost_bind.
  - apply (parse_loop_post cx toks (po_line o) Hg (lex_chain _ _ Hl) (lex_slashed _ _ Hl)).
    + unfold frest, fs0. cbn [f_next f_p p_toks full]. lia.
    + reflexivity.
    + exists []. simpl. repeat split; lia.
    + change (frest fs0) with toks. change (px_src cx) with src. rewrite Hp0. reflexivity.
    + constructor.
  - intros ns fs H. cbn [ppost]. exists ns. split; [reflexivity | exact H].
Qed.

(** ** Lint *)
Lemma until_mode_suffix l : exists pre, l = pre ++ full (fst (until_mode l)) (snd (until_mode l)).
Proof.
  induction l as [|t l (pre & IH)]; [exists []; reflexivity|]. simpl.
  destruct (t_kind t); try (exists (t :: pre); simpl; f_equal; exact IH). exists []. reflexivity.
Qed.
Definition lint_next (fs : fstate) : fstate :=
  mkF (mkPst (snd (until_mode (p_toks (f_p fs)))) (p_line (f_p fs)) (p_byte (f_p fs))) (f_stack fs)
      (fst (until_mode (p_toks (f_p fs)))).
Lemma lint_loop_eq fuel cx errs fs : lint_loop (S fuel) cx errs fs =
  match fst (ftoken fs) with
  | None => POk errs (snd (ftoken fs))
  | Some t =>
      match advance (adv_fuel (snd (ftoken fs))) cx t (snd (ftoken fs)) with
      | POk None fs => POk errs fs
      | POk (Some _) fs => lint_loop fuel cx errs fs
      | PErr e fs => lint_loop fuel cx (errs ++ [e]) (lint_next fs)
      | PPanic p => PPanic p
      | PFuel => PFuel
      end
  end.
Proof.
  cbn [lint_loop]. destruct (ftoken fs) as [[t|] fs']; [|reflexivity]. cbn [fst snd].
  destruct (advance (adv_fuel fs') cx t fs') as [[n|] f|e f|p|]; try reflexivity.
  unfold lint_next. destruct (until_mode (p_toks (f_p f))); reflexivity.
Qed.

(** one call of [advance] from any state *)
Lemma advance_local cx t fs : let src := px_src cx in
  f_next fs = None -> good src (t :: p_toks (f_p fs)) -> chain (t :: p_toks (f_p fs)) -> slashed src (t :: p_toks (f_p fs)) ->
  ppost (fun r fs' => r = None \/ exists pre, p_toks (f_p fs) = pre ++ frest fs')
        (fun fs' => exists pre, p_toks (f_p fs) = pre ++ p_toks (f_p fs')) (advance (adv_fuel fs) cx t fs).
Proof.
  intros src Hn Hg Hc Hs. destruct (advance_post (adv_fuel fs)) as [Ha _].
  specialize (Ha cx (t :: p_toks (f_p fs)) (p_line (f_p fs)) t fs). cbv zeta in Ha. fold src in Ha.
  eapply ppost_mono; [apply Ha; try assumption; [unfold adv_fuel; lia|]| |].
  - exists []. simpl. repeat split; lia.
  - intros [n|] fs' Hr; [right|left; reflexivity]. destruct Hr as ((a & E & _) & Hl & _).
    destruct (app_suffix (frest fs') (p_toks (f_p fs)) [t] a E Hl) as (x & Hx). exists x. exact Hx.
  - intros fs' He. exact He.
Qed.

Lemma chain_tail t l : chain (t :: l) -> chain l.
Proof. apply (chain_suffix [t]). Qed.
Lemma slashed_suffix src a l : slashed src (a ++ l) -> slashed src l.
Proof. intros H t Hin. apply H. apply in_or_app. right. exact Hin. Qed.
Lemma suffix_ok src a l : good src (a ++ l) -> chain (a ++ l) -> slashed src (a ++ l) ->
  good src l /\ chain l /\ slashed src l.
Proof.
  intros H1 H2 H3. split; [apply good_app in H1; apply H1|]. split; [eapply chain_suffix, H2 | eapply slashed_suffix, H3].
Qed.

Lemma lint_loop_post cx : let src := px_src cx in forall fuel errs fs,
  length (frest fs) < fuel -> good src (frest fs) -> chain (frest fs) -> slashed src (frest fs) ->
  ppost (fun errs' _ => exists more, errs' = errs ++ more) (fun _ => False) (lint_loop fuel cx errs fs).
Proof.
  intros src. induction fuel as [|fuel IH]; intros errs fs Hf Hg Hc Hs; [lia|].
  rewrite lint_loop_eq. pose proof (ftoken_rest fs) as Hft. destruct (ftoken fs) as [[t|] fs1]; cbn [fst snd].
  - destruct Hft as (E & En & Es & El). rewrite E in Hf, Hg, Hc, Hs. simpl in Hf.
    pose proof (advance_local cx t fs1 En Hg Hc Hs) as Hadv.
    destruct (suffix_ok src [t] _ Hg Hc Hs) as (Hg1 & Hc1 & Hs1).
    destruct (advance (adv_fuel fs1) cx t fs1) as [[n|] fs2|e fs2|p|]; cbn [ppost] in *; try exact Hadv.
    + destruct Hadv as [?|(pre & Ep)]; [discriminate|]. rewrite Ep in Hg1, Hc1, Hs1.
      destruct (suffix_ok src _ _ Hg1 Hc1 Hs1) as (Hg2 & Hc2 & Hs2).
      apply IH; try assumption. rewrite Ep, app_length in Hf. lia.
    + exists []. symmetry. apply app_nil_r.
    + destruct Hadv as (pre & Ep). rewrite Ep in Hg1, Hc1, Hs1, Hf. 
      destruct (suffix_ok src _ _ Hg1 Hc1 Hs1) as (Hg2 & Hc2 & Hs2).
      destruct (until_mode_suffix (p_toks (f_p fs2))) as (pre2 & Ep2). 
      change (full (fst (until_mode (p_toks (f_p fs2)))) (snd (until_mode (p_toks (f_p fs2))))) with (frest (lint_next fs2)) in Ep2.
      rewrite Ep2 in Hg2, Hc2, Hs2, Hf. destruct (suffix_ok src _ _ Hg2 Hc2 Hs2) as (Hg3 & Hc3 & Hs3).
      eapply ppost_mono; [apply IH; try assumption; rewrite !app_length in Hf; lia| |].
      * intros errs' _ (more & ->). exists (e :: more). rewrite <- app_assoc. reflexivity.
      * intros _ [].
  - destruct Hft as [E ->]. cbn [ppost]. exists []. symmetry. apply app_nil_r.
Qed.

(** lint runs like compile up to the first error *)
Lemma lint_sim cx : let src := px_src cx in forall fuel acc errs fs,
  length (frest fs) < fuel -> good src (frest fs) -> chain (frest fs) -> slashed src (frest fs) ->
  match parse_loop fuel cx acc fs with
  | POk _ fs' => lint_loop fuel cx errs fs = POk errs fs'
  | PErr e _ => (exists more fs', lint_loop fuel cx errs fs = POk (errs ++ e :: more) fs') \/ exists p, lint_loop fuel cx errs fs = PPanic p
  | PPanic p => lint_loop fuel cx errs fs = PPanic p
  | PFuel => True
  end.
Proof.
  intros src. induction fuel as [|fuel IH]; intros acc errs fs Hf Hg Hc Hs; [lia|].
  rewrite lint_loop_eq, parse_loop_eq.
  pose proof (ftoken_rest fs) as Hft. destruct (ftoken fs) as [[t|] fs1]; cbn [fst snd]; [|reflexivity].
  destruct Hft as (E & En & Es & El). rewrite E in Hf, Hg, Hc, Hs. simpl in Hf.
  pose proof (advance_local cx t fs1 En Hg Hc Hs) as Hadv.
  destruct (suffix_ok src [t] _ Hg Hc Hs) as (Hg1 & Hc1 & Hs1).
  destruct (advance (adv_fuel fs1) cx t fs1) as [[n|] fs2|e fs2|p|]; cbn [pbind ppost] in *; try reflexivity.
  - destruct Hadv as [?|(pre & Ep)]; [discriminate|]. rewrite Ep in Hg1, Hc1, Hs1.
    destruct (suffix_ok src _ _ Hg1 Hc1 Hs1) as (Hg2 & Hc2 & Hs2).
    apply IH; try assumption. rewrite Ep, app_length in Hf. lia.
  - destruct Hadv as (pre & Ep). rewrite Ep in Hg1, Hc1, Hs1, Hf. 
    destruct (suffix_ok src _ _ Hg1 Hc1 Hs1) as (Hg2 & Hc2 & Hs2).
    destruct (until_mode_suffix (p_toks (f_p fs2))) as (pre2 & Ep2). 
    change (full (fst (until_mode (p_toks (f_p fs2)))) (snd (until_mode (p_toks (f_p fs2))))) with (frest (lint_next fs2)) in Ep2.
    rewrite Ep2 in Hg2, Hc2, Hs2, Hf. destruct (suffix_ok src _ _ Hg2 Hc2 Hs2) as (Hg3 & Hc3 & Hs3).
    pose proof (lint_loop_post cx fuel (errs ++ [e]) (lint_next fs2)) as Hl. cbv zeta in Hl. fold src in Hl.
    rewrite !app_length in Hf. assert (Hf' : length (frest (lint_next fs2)) < fuel) by lia.
    specialize (Hl Hf' Hg3 Hc3 Hs3).
    destruct (lint_loop fuel cx (errs ++ [e]) (lint_next fs2)) as [errs' fs3|e' fs3|p|]; cbn [ppost] in Hl; try contradiction.
    + left. destruct Hl as (more & ->). exists more, fs3. rewrite <- app_assoc. reflexivity.
    + right. exists p. reflexivity.
Qed.

Lemma lint_compile env name src :
  match compile env (mkOpts name 0 0) src with
  | POk _ _ => exists fs, lint env name src = POk [] fs
  | PErr e _ => (exists more fs, lint env name src = POk (e :: more) fs) \/ (exists p, lint env name src = PPanic p)
  | PPanic p => lint env name src = PPanic p
  | PFuel => False
  end.
Proof.
  destruct (lex_total src) as (toks & Hl & _).
  pose proof (compile_post env (mkOpts name 0 0) src toks Hl) as Hc. unfold compile, lint in *. rewrite Hl in *. cbv zeta in *.
  cbn [po_file po_line po_byte] in *.
  set (cx := mkPctx env src name) in *. set (fs0 := mkF (mkPst toks 0 0) [] None) in *.
  pose proof (lint_sim cx (S (length toks)) [] [] fs0) as H. cbv zeta in H. change (frest fs0) with toks in H.
  specialize (H (le_n _) (lex_good _ _ Hl) (lex_chain _ _ Hl) (lex_slashed _ _ Hl)).
  destruct (parse_loop (S (length toks)) cx [] fs0) as [ns fs|e fs|p|]; cbn [pbind ppost] in *; try exact H; try contradiction.
  exists fs. exact H.
Qed.
Lemma lint_total env name src : lint env name src <> PFuel /\ forall e fs, lint env name src <> PErr e fs.
Proof.
  destruct (lex_total src) as (toks & Hl & _). unfold lint. rewrite Hl.
  set (cx := mkPctx env src name) in *. set (fs0 := mkF (mkPst toks 0 0) [] None) in *.
  pose proof (lint_loop_post cx (S (length toks)) [] fs0) as H. cbv zeta in H. change (frest fs0) with toks in H.
  specialize (H (le_n _) (lex_good _ _ Hl) (lex_chain _ _ Hl) (lex_slashed _ _ Hl)).
  destruct (lint_loop _ _ _ _); cbn [ppost] in H; try contradiction; split; try discriminate.
Qed.
Lemma lint_panics env name src p : lint env name src = PPanic p -> ok_panic p.
Proof.
  destruct (lex_total src) as (toks & Hl & _). unfold lint. rewrite Hl.
  set (cx := mkPctx env src name) in *. set (fs0 := mkF (mkPst toks 0 0) [] None) in *.
  pose proof (lint_loop_post cx (S (length toks)) [] fs0) as H. cbv zeta in H. change (frest fs0) with toks in H.
  specialize (H (le_n _) (lex_good _ _ Hl) (lex_chain _ _ Hl) (lex_slashed _ _ Hl)). intros E. rewrite E in H. exact H.
Qed.

(** ** Newline tokens and newline characters *)
Fixpoint nlfree (r : Regex.re) : bool :=
  match r with
  | Regex.REmpty | Regex.REps => true
  | Regex.RChr f => negb (f 10%N)
  | Regex.RCat a b | Regex.RAlt a b => nlfree a && nlfree b
  | Regex.RStar a => nlfree a
  end.
Lemma nlfree_lang r w : lang r w -> nlfree r = true -> ~ In 10%N w.
Proof.
  induction 1; simpl; intros Hf; try (intros []; fail).
  - intros [->|[]]. rewrite H in Hf. discriminate.
  - apply andb_true_iff in Hf. intros Hin. apply in_app_or in Hin. destruct Hin; [apply IHlang1 | apply IHlang2]; tauto.
  - apply andb_true_iff in Hf. apply IHlang. tauto.
  - apply andb_true_iff in Hf. apply IHlang. tauto.
  - intros Hin. apply in_app_or in Hin. destruct Hin; [apply IHlang1 | apply IHlang2]; assumption.
Qed.
Lemma nb_app q : forall a b p, newlines_before p (a ++ b) q = newlines_before p a q + newlines_before (p + blen a) b q.
Proof.
  induction a as [|c a IH]; intros b p; simpl; [rewrite Nat.add_0_r; reflexivity|].
  rewrite IH, Nat.add_assoc, (Nat.add_assoc p). reflexivity.
Qed.
Lemma nb_none q : forall w p, ~ In 10%N w -> newlines_before p w q = 0.
Proof.
  induction w as [|c w IH]; intros p H; simpl; [reflexivity|].
  destruct (c =? 10)%N eqn:E; [apply N.eqb_eq in E; exfalso; apply H; left; exact E|].
  simpl. apply IH. intros Hin. apply H. right. exact Hin.
Qed.
Lemma pats_nl m : m <> MLink -> Forall (fun rk => if is_newline (snd rk) then fst rk = nl else nlfree (fst rk) = true) (pats m).
Proof. intros H. destruct m; try congruence; repeat constructor. Qed.
Lemma nl_in_pats m : exists k, In (nl, k) (pats m).
Proof.
  destruct m; simpl; eexists; repeat (try (left; reflexivity); right).
Qed.
Lemma tokenizes_lines q m p s l : tokenizes m p s l -> (forall t, In t l -> kind_mode (t_kind t) <> MLink) ->
  nlat l q = newlines_before p s q.
Proof.
  induction 1 as [m p|m p w rest k l Hn Ht IH]; intros Hl; [reflexivity|].
  rewrite nb_app, <- IH by (intros t Hin; apply Hl; right; exact Hin).
  assert (Hm : m <> MLink).
  { rewrite <- (next_token_kind _ _ _ _ Hn). apply (Hl (Tok k p (p + blen w))). left. reflexivity. }
  assert (Hw : newlines_before p w q = if is_newline k && (p <? q) then 1 else 0).
  { assert (Hf : firstn (length w) (w ++ rest) = w) by (rewrite firstn_app, firstn_all, Nat.sub_diag, firstn_O, app_nil_r; reflexivity).
    destruct Hn as [(h & r & lo & E & [H1 H2] & _)|(H1 & -> & H2 & H3)].
    - pose proof (pats_nl m Hm) as Hp. rewrite E in Hp. apply Forall_app in Hp. destruct Hp as [_ Hp].
      inversion Hp as [|? ? Hp1 _]; subst. simpl in Hp1. rewrite Hf in H2. destruct (is_newline k).
      + subst r. apply lang_chr_iff in H2. destruct H2 as (c & -> & Hc). apply N.eqb_eq in Hc. subst c.
        simpl. destruct (p <? q); reflexivity.
      + apply nb_none. eapply nlfree_lang; eassumption.
    - assert (En : is_newline (err_kind m) = false) by (destruct m; reflexivity). rewrite En. apply nb_none.
      destruct w as [|c [|]]; try discriminate H2. intros [->|[]].
      destruct (nl_in_pats m) as (k & Hk). apply (H1 _ _ 1 Hk). split; [simpl; lia|]. simpl. constructor. reflexivity. }
  rewrite Hw. unfold nlat. cbn [filter t_start]. destruct (p <? q); simpl.
  - unfold nl1. simpl. rewrite andb_true_r. reflexivity.
  - rewrite andb_false_r. reflexivity.
Qed.
