(** * ErrFacts: the report inside a syntax error is the one for the line and byte the parser had reached (C11). *)
From Coq Require Import Lia String.
From Verif Require Import Str Lexer Json Ast ErrInfo Parser CallFacts ArgFacts BlockFacts DocFacts.
Open Scope nat_scope. Open Scope list_scope.

Definition reported (cx : pctx) (e : syntax_error) (s : pst) : Prop :=
  exists notes, err_info (pe_width (px_env cx)) (px_file cx) (px_src cx) (p_line s) (p_byte s) notes = Some (se_info e).
(** what a panic tells *)
Definition reason (cx : pctx) (p : panic) : Prop :=
  match p with
  | PanErrorInfo => exists line byte notes, err_info (pe_width (px_env cx)) (px_file cx) (px_src cx) line byte notes = None
  | PanNumber => exists sp s, sl (px_src cx) sp = Some s /\ parse_number (pe_num (px_env cx)) s = None
  | PanParents => pe_checked (px_env cx) = true
  | PanSlice | PanUnwrap => True
  end.
Definition esrc {A} (cx : pctx) (m : pres pst A) : Prop :=
  match m with PErr e s => reported cx e s | PPanic p => reason cx p | _ => True end.
Definition fsrc {A} (cx : pctx) (m : pres fstate A) : Prop :=
  match m with PErr e s => reported cx e (f_p s) | PPanic p => reason cx p | _ => True end.
Lemma esrc_bind {A B} cx (m : pres pst A) (f : A -> pst -> pres pst B) :
  esrc cx m -> (forall a s, esrc cx (f a s)) -> esrc cx (pbind m f).
Proof. intros H Hf. destruct m; simpl; try exact I; [apply Hf | exact H | exact H]. Qed.
Lemma fsrc_bind {A B} cx (m : pres fstate A) (f : A -> fstate -> pres fstate B) :
  fsrc cx m -> (forall a s, fsrc cx (f a s)) -> fsrc cx (pbind m f).
Proof. intros H Hf. destruct m; simpl; try exact I; [apply Hf | exact H | exact H]. Qed.
Lemma esrc_perr_n {A} cx k notes st : esrc (A:=A) cx (perr_n cx k notes st).
Proof. unfold perr_n. destruct (err_info _ _ _ _ _ notes) eqn:E; [exists notes; exact E | exists (p_line st), (p_byte st), notes; exact E]. Qed.
Lemma esrc_perr {A} cx k st : esrc (A:=A) cx (perr cx k st).
Proof. apply esrc_perr_n. Qed.
Lemma esrc_pslice {A} cx o st (f : str -> pres pst A) : (forall s, esrc cx (f s)) -> esrc cx (pslice o st f).
Proof. intros H. destruct o; [apply H | exact I]. Qed.
Lemma fsrc_lift {A} cx (m : pres pst A) stk nx : esrc cx m -> fsrc cx (lift m stk nx).
Proof. destruct m; simpl; exact (fun H => H). Qed.

Ltac eat0 := match goal with
  | |- esrc _ (POk _ _) => exact I
  | |- esrc _ (PPanic _) => exact I
  | |- esrc _ PFuel => exact I
  | |- esrc _ (perr _ _ _) => apply esrc_perr
  | |- esrc _ (perr_n _ _ _ _) => apply esrc_perr_n
  | |- esrc _ (pslice _ _ _) => apply esrc_pslice; intros
  | |- esrc _ (pbind _ _) => apply esrc_bind; [|intros]
  | H : _ |- esrc _ _ => solve [apply H]
  | |- esrc _ (match ?x with _ => _ end) => destruct x
  end.
Ltac eat := cbv zeta; repeat eat0.

Lemma string_go_src cx ty stop : forall toks start n d line byte, esrc cx (string_go cx ty start stop n d toks line byte).
Proof. intros toks. revert stop. induction toks as [|t ts IH]; intros; simpl; eat. Qed.
Lemma string_parse_src cx ty cur st : esrc cx (string_parse cx ty cur st).
Proof. apply string_go_src. Qed.
Lemma string_literal_src cx ty cur st : esrc cx (string_literal cx ty cur st).
Proof. unfold string_literal. pose proof string_parse_src. eat. Qed.
Lemma to_component_src cx k sp raw st : esrc cx (to_component cx k sp raw st).
Proof. unfold to_component. eat. Qed.
Lemma components_src fuel cx : forall p w st, esrc cx (components fuel cx p w st).
Proof.
  pose proof string_parse_src. pose proof to_component_src.
  induction fuel as [|fuel IH]; intros; [exact I|]. rewrite components_eq. unfold comp_tail. eat.
Qed.
Lemma path_loop_src cx : forall toks p next line byte, esrc cx (path_loop cx p next toks line byte).
Proof.
  pose proof to_component_src. pose proof components_src.
  induction toks as [|t' ts IH]; intros; rewrite path_loop_eq; unfold path_first; eat.
Qed.
Lemma path_parse_src cx k t st : esrc cx (path_parse cx k t st).
Proof.
  pose proof path_loop_src. unfold path_parse. apply esrc_pslice. intros s.
  assert (Hp : forall n toks, match parents_go (pe_checked (px_env cx)) n toks with None => pe_checked (px_env cx) = true | _ => True end).
  { intros n toks. revert n. induction toks as [|u ts IH]; intros n; cbn [parents_go]; [exact I|].
    destruct (t_kind u) as [b|q|q|q|k'|q|q|q|q]; try exact I. destruct k'; try exact I.
    destruct (n =? 255)%N; [|apply IH]. destruct (pe_checked (px_env cx)); [reflexivity | apply IH]. }
  specialize (Hp 1%N (p_toks st)). destruct k; eat; exact Hp.
Qed.
Lemma json_literal_src cx k t st : esrc cx (json_literal cx k t st).
Proof.
  pose proof string_literal_src. unfold json_literal. destruct k; try solve [eat].
  unfold pslice. destruct (sl (px_src cx) (tspan t)) as [s|] eqn:Es; [|exact I].
  destruct (parse_number _ s) eqn:En; [exact I|]. exists (tspan t), s. split; assumption.
Qed.
Lemma call_src fuel cx :
  (forall open st, esrc cx (sub_expr fuel cx open st))
  /\ (forall k t st, esrc cx (value_ fuel cx k t st))
  /\ (forall c t ctx st, esrc cx (key_value fuel cx c t ctx st))
  /\ (forall c n ctx st, esrc cx (kv_loop fuel cx c n ctx st))
  /\ (forall c n ctx st, esrc cx (arguments fuel cx c n ctx st))
  /\ (forall c n ctx st, esrc cx (call_target fuel cx c n ctx st)).
Proof.
  pose proof path_parse_src. pose proof json_literal_src.
  induction fuel as [|fuel (I1 & I2 & I3 & I4 & I5 & I6)]; [repeat split|].
  repeat split; intros.
  - rewrite sub_expr_eq. eat.
  - rewrite value_eq. eat.
  - rewrite key_value_eq. eat.
  - rewrite kv_loop_eq. eat.
  - rewrite arguments_eq. eat.
  - rewrite call_target_eq. eat.
Qed.
Lemma call_parse_src cx open st : esrc cx (call_parse cx open st).
Proof.
  unfold call_parse. cbv zeta. destruct (pnext _) as [n s]. destruct (flags_go _ _ _ _ _) as [[c n'] s'].
  destruct (_ && _); [apply esrc_perr|]. apply esrc_bind; [apply call_src|]. intros [c2 n2] s2.
  apply esrc_bind; [apply call_src|]. intros [c3 n3] s3. exact I.
Qed.
Lemma link_value_src cx : forall toks l vt f line byte, esrc cx (link_value cx l vt f toks line byte).
Proof. induction toks as [|t ts IH]; intros; cbn [link_value]; eat. Qed.
Lemma link_href_src cx : forall toks l f line byte, esrc cx (link_href_go cx l f toks line byte).
Proof. pose proof link_value_src. induction toks as [|t ts IH]; intros; cbn [link_href_go]; eat. Qed.
Lemma link_parse_src cx open st : esrc cx (link_parse cx open st).
Proof. unfold link_parse. pose proof link_href_src. eat. Qed.
Lemma raw_block_src cx open st : esrc cx (raw_block cx open st).
Proof. unfold raw_block. pose proof call_parse_src. eat. Qed.
Lemma leaves_src cx open st : esrc cx (raw_comment cx open st) /\ esrc cx (raw_statement cx open st)
  /\ esrc cx (comment cx open st) /\ esrc cx (scope cx open st).
Proof. unfold raw_comment, raw_statement, comment, scope. pose proof call_parse_src. repeat split; eat. Qed.

Lemma advance_src fuel cx : (forall t fs, fsrc cx (advance fuel cx t fs)) /\ (forall fs, fsrc cx (block_loop fuel cx fs)).
Proof.
  induction fuel as [|fuel [I1 I2]]; [split; intros; exact I|]. split; intros.
  - rewrite advance_eq. cbv zeta. destruct (is_text (t_kind t)).
    { destruct (until _ _ _ _ _) as [[sp n] s]. exact I. }
    set (st := if is_newline (t_kind t) then inc_line (f_p fs) else f_p fs).
    pose proof (leaves_src cx (tspan t) st) as (L1 & L2 & L3 & L4).
    destruct (t_kind t) as [b|q|q|q|k|q|q|q|q]; try exact I. destruct b; try exact I.
    all: apply fsrc_bind; [apply fsrc_lift; try assumption; first [apply raw_block_src | apply call_parse_src | apply link_parse_src]|]; intros a s; try exact I.
    + destruct (block_name (px_src cx) a) as [[name|]|]; [|apply fsrc_lift, esrc_perr|exact I].
      destruct (c_target (b_call a)); [apply I2|]. destruct (c_partial (b_call a)); [apply I2 | apply fsrc_lift, esrc_perr].
    + destruct (block_name (px_src cx) a) as [close|]; [|exact I].
      destruct (f_stack fs) as [|[on b] stk']; [apply fsrc_lift, esrc_perr_n|].
      destruct close as [cn|]; [|apply fsrc_lift, esrc_perr].
      destruct (streq on cn); [exact I | apply fsrc_lift, esrc_perr_n].
  - rewrite block_loop_eq. destruct (fst (ftoken fs)) as [t|]; [|exact I].
    apply fsrc_bind; [apply I1|]. intros [n|] s; [|exact I]. destruct (f_stack s) as [|[name b] stk]; [exact I | apply I2].
Qed.
Lemma parse_loop_src cx fuel : forall acc fs, fsrc cx (parse_loop fuel cx acc fs).
Proof.
  induction fuel as [|fuel IH]; intros; [exact I|]. rewrite parse_loop_eq. destruct (fst (ftoken fs)) as [t|]; [|exact I].
  apply fsrc_bind; [apply advance_src|]. intros [n|] s; [apply IH | exact I].
Qed.
Lemma compile_src env o src e fs : compile env o src = PErr e fs ->
  exists notes, err_info (pe_width env) (po_file o) src (p_line (f_p fs)) (p_byte (f_p fs)) notes = Some (se_info e).
Proof.
  unfold compile. destruct (lex src) as [toks|]; [|discriminate].
  set (cx := mkPctx env src (po_file o)). intros H.
  assert (Hs : fsrc cx (PErr (A:=node) e fs)).
  { rewrite <- H. apply fsrc_bind; [apply parse_loop_src | intros; exact I]. }
  exact Hs.
Qed.
Lemma compile_panic_src env o src p : compile env o src = PPanic p -> reason (mkPctx env src (po_file o)) p.
Proof.
  unfold compile. destruct (lex src) as [toks|]; [|discriminate].
  set (cx := mkPctx env src (po_file o)). intros H.
  assert (Hs : fsrc cx (PPanic (A:=node) p)).
  { rewrite <- H. apply fsrc_bind; [apply parse_loop_src | intros; exact I]. }
  exact Hs.
Qed.
