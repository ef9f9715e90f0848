(** * FileFacts: the file name given to the parser is only used in error reports (C57). *)
From Coq Require Import Lia String.
From Verif Require Import Str Lexer Json Ast ErrInfo Parser CallFacts ArgFacts BlockFacts DocFacts.
Open Scope nat_scope. Open Scope list_scope.

(** the same result, up to the report inside a syntax error *)
Definition alike {S A} (m1 m2 : pres S A) : Prop :=
  match m1, m2 with
  | POk a s, POk b t => a = b /\ s = t
  | PErr e s, PErr f t => se_kind e = se_kind f /\ s = t
  | PPanic p, PPanic q => p = q
  | PFuel, PFuel => True
  | _, _ => False
  end.
Lemma alike_bind {S A B} (m1 m2 : pres S A) (f1 f2 : A -> S -> pres S B) :
  alike m1 m2 -> (forall a s, alike (f1 a s) (f2 a s)) -> alike (pbind m1 f1) (pbind m2 f2).
Proof. intros H Hf. destruct m1, m2; simpl in *; try contradiction; try exact H; try exact I. destruct H as [<- <-]. apply Hf. Qed.
Lemma alike_refl {S A} (m : pres S A) : alike m m.
Proof. destruct m; simpl; auto. Qed.
Lemma err_info_file w f1 f2 s line byte notes :
  match err_info w f1 s line byte notes, err_info w f2 s line byte notes with Some _, Some _ => True | None, None => True | _, _ => False end.
Proof.
  unfold err_info. destruct (find_prev s byte); [|exact I]. destruct (find_next _ _ _); [|exact I]. destruct (slice _ _ _); [|exact I].
  cbv zeta. destruct (slice _ _ _); exact I.
Qed.
Section File.
Variables (pe : penv) (src f1 f2 : str).
Let c1 := mkPctx pe src f1.
Let c2 := mkPctx pe src f2.
Lemma alike_perr_n {A} k notes st : alike (A:=A) (perr_n c1 k notes st) (perr_n c2 k notes st).
Proof.
  unfold perr_n. cbn [px_env px_file px_src c1 c2]. pose proof (err_info_file (pe_width pe) f1 f2 src (p_line st) (p_byte st) notes) as H.
  destruct (err_info _ f1 _ _ _ _), (err_info _ f2 _ _ _ _); try contradiction; split; reflexivity.
Qed.
Lemma alike_perr {A} k st : alike (A:=A) (perr c1 k st) (perr c2 k st).
Proof. apply alike_perr_n. Qed.
Lemma alike_pslice {A} o st (g1 g2 : str -> pres pst A) : (forall s, alike (g1 s) (g2 s)) -> alike (pslice o st g1) (pslice o st g2).
Proof. intros H. destruct o; [apply H | reflexivity]. Qed.
Lemma alike_lift {A} (m1 m2 : pres pst A) stk nx : alike m1 m2 -> alike (lift m1 stk nx) (lift m2 stk nx).
Proof. destruct m1, m2; simpl; intros H; try contradiction; try exact H. - destruct H as [-> ->]; auto. - destruct H as [-> ->]; auto. Qed.

Ltac mt0 := match goal with
  | |- alike (POk _ _) (POk _ _) => apply alike_refl
  | |- alike (PPanic _) (PPanic _) => reflexivity
  | |- alike PFuel PFuel => exact I
  | |- alike (perr _ _ _) _ => apply alike_perr
  | |- alike (perr_n _ _ _ _) _ => apply alike_perr_n
  | |- alike (pslice _ _ _) _ => apply alike_pslice; intros
  | |- alike (pbind _ _) _ => apply alike_bind; [|intros]
  | H : _ |- alike _ _ => solve [apply H]
  | |- alike (match ?x with _ => _ end) _ => destruct x
  end.
Ltac mt := cbv zeta; change (px_src c1) with src; change (px_src c2) with src; change (px_env c1) with pe; change (px_env c2) with pe; repeat mt0.

Lemma string_go_file ty stop : forall toks start n d line byte, alike (string_go c1 ty start stop n d toks line byte) (string_go c2 ty start stop n d toks line byte).
Proof. intros toks. revert stop. induction toks as [|t ts IH]; intros; cbn [string_go]; mt. Qed.
Lemma string_parse_file ty cur st : alike (string_parse c1 ty cur st) (string_parse c2 ty cur st).
Proof. apply string_go_file. Qed.
Lemma string_literal_file ty cur st : alike (string_literal c1 ty cur st) (string_literal c2 ty cur st).
Proof. unfold string_literal. pose proof string_parse_file. mt. Qed.
Lemma to_component_file k sp raw st : alike (to_component c1 k sp raw st) (to_component c2 k sp raw st).
Proof. unfold to_component. mt. Qed.
Lemma components_file fuel : forall p w st, alike (components fuel c1 p w st) (components fuel c2 p w st).
Proof.
  pose proof string_parse_file. pose proof to_component_file.
  induction fuel as [|fuel IH]; intros; [exact I|]. rewrite !components_eq. unfold comp_tail. mt.
Qed.
Lemma path_loop_file : forall toks p next line byte, alike (path_loop c1 p next toks line byte) (path_loop c2 p next toks line byte).
Proof.
  pose proof to_component_file. pose proof components_file.
  induction toks as [|t' ts IH]; intros; rewrite !path_loop_eq; unfold path_first; mt.
Qed.
Lemma path_parse_file k t st : alike (path_parse c1 k t st) (path_parse c2 k t st).
Proof. pose proof path_loop_file. unfold path_parse. mt. Qed.
Lemma json_literal_file k t st : alike (json_literal c1 k t st) (json_literal c2 k t st).
Proof. pose proof string_literal_file. unfold json_literal. mt. Qed.
Lemma call_file fuel :
  (forall open st, alike (sub_expr fuel c1 open st) (sub_expr fuel c2 open st))
  /\ (forall k t st, alike (value_ fuel c1 k t st) (value_ fuel c2 k t st))
  /\ (forall c t ctx st, alike (key_value fuel c1 c t ctx st) (key_value fuel c2 c t ctx st))
  /\ (forall c n ctx st, alike (kv_loop fuel c1 c n ctx st) (kv_loop fuel c2 c n ctx st))
  /\ (forall c n ctx st, alike (arguments fuel c1 c n ctx st) (arguments fuel c2 c n ctx st))
  /\ (forall c n ctx st, alike (call_target fuel c1 c n ctx st) (call_target fuel c2 c n ctx st)).
Proof.
  pose proof path_parse_file. pose proof json_literal_file.
  induction fuel as [|fuel (I1 & I2 & I3 & I4 & I5 & I6)]; [repeat split|].
  repeat split; intros.
  - rewrite !sub_expr_eq. mt.
  - rewrite !value_eq. mt.
  - rewrite !key_value_eq. mt.
  - rewrite !kv_loop_eq. mt.
  - rewrite !arguments_eq. mt.
  - rewrite !call_target_eq. mt.
Qed.
Lemma call_parse_file open st : alike (call_parse c1 open st) (call_parse c2 open st).
Proof.
  unfold call_parse. cbv zeta. destruct (pnext _) as [n s]. destruct (flags_go _ _ _ _ _) as [[c n'] s'].
  destruct (_ && _); [apply alike_perr|]. apply alike_bind; [apply call_file|]. intros [x2 n2] s2.
  apply alike_bind; [apply call_file|]. intros [x3 n3] s3. apply alike_refl.
Qed.
Lemma link_value_file : forall toks l vt f line byte, alike (link_value c1 l vt f toks line byte) (link_value c2 l vt f toks line byte).
Proof. induction toks as [|t ts IH]; intros; cbn [link_value]; mt. Qed.
Lemma link_href_file : forall toks l f line byte, alike (link_href_go c1 l f toks line byte) (link_href_go c2 l f toks line byte).
Proof. pose proof link_value_file. induction toks as [|t ts IH]; intros; cbn [link_href_go]; mt. Qed.
Lemma link_parse_file open st : alike (link_parse c1 open st) (link_parse c2 open st).
Proof. unfold link_parse. pose proof link_href_file. mt. Qed.
Lemma raw_block_file open st : alike (raw_block c1 open st) (raw_block c2 open st).
Proof. unfold raw_block. pose proof call_parse_file. mt. Qed.
Lemma leaves_file open st : alike (raw_comment c1 open st) (raw_comment c2 open st) /\ alike (raw_statement c1 open st) (raw_statement c2 open st)
  /\ alike (comment c1 open st) (comment c2 open st) /\ alike (scope c1 open st) (scope c2 open st).
Proof. unfold raw_comment, raw_statement, comment, scope. pose proof call_parse_file. repeat split; mt. Qed.

Lemma advance_file fuel : (forall t fs, alike (advance fuel c1 t fs) (advance fuel c2 t fs)) /\ (forall fs, alike (block_loop fuel c1 fs) (block_loop fuel c2 fs)).
Proof.
  induction fuel as [|fuel [I1 I2]]; [split; intros; exact I|]. split; intros.
  - rewrite !advance_eq. cbv zeta. destruct (is_text (t_kind t)).
    { destruct (until _ _ _ _ _) as [[sp n] s]. apply alike_refl. }
    set (st := if is_newline (t_kind t) then inc_line (f_p fs) else f_p fs).
    pose proof (leaves_file (tspan t) st) as (L1 & L2 & L3 & L4). change (px_src c1) with src. change (px_src c2) with src.
    destruct (t_kind t) as [b|q|q|q|k|q|q|q|q]; try apply alike_refl. destruct b; try apply alike_refl.
    all: apply alike_bind; [apply alike_lift; try assumption; first [apply raw_block_file | apply call_parse_file | apply link_parse_file]|]; intros a s; try apply alike_refl.
    + destruct (block_name src a) as [[name|]|]; [|apply alike_lift, alike_perr|apply alike_refl].
      destruct (c_target (b_call a)); [apply I2|]. destruct (c_partial (b_call a)); [apply I2 | apply alike_lift, alike_perr].
    + destruct (block_name src a) as [close|]; [|apply alike_refl].
      destruct (f_stack fs) as [|[on b] stk']; [apply alike_lift, alike_perr_n|].
      destruct close as [cn|]; [|apply alike_lift, alike_perr].
      destruct (streq on cn); [apply alike_refl | apply alike_lift, alike_perr_n].
  - rewrite !block_loop_eq. destruct (fst (ftoken fs)) as [t|]; [|apply alike_refl].
    apply alike_bind; [apply I1|]. intros [n|] s; [|apply alike_refl]. destruct (f_stack s) as [|[name b] stk]; [apply alike_refl | apply I2].
Qed.
Lemma parse_loop_file fuel : forall acc fs, alike (parse_loop fuel c1 acc fs) (parse_loop fuel c2 acc fs).
Proof.
  induction fuel as [|fuel IH]; intros; [exact I|]. rewrite !parse_loop_eq. destruct (fst (ftoken fs)) as [t|]; [|apply alike_refl].
  apply alike_bind; [apply advance_file|]. intros [n|] s; [apply IH | apply alike_refl].
Qed.
End File.
Lemma compile_file pe src f1 f2 line byte : alike (compile pe (mkOpts f1 line byte) src) (compile pe (mkOpts f2 line byte) src).
Proof.
  unfold compile. destruct (lex src) as [toks|]; [|apply alike_refl]. cbn [po_file po_line po_byte].
  apply alike_bind; [apply parse_loop_file|]. intros a s. apply alike_refl.
Qed.
