(** * Props_Messages: error values and messages (C57, C58). *)
From Coq Require Import Lia String.
From Verif Require Import Str Json Ast ErrInfo Parser Render Helpers Registry StrFacts Spec_Values ValueFacts LookupFacts Spec_Messages Tests.
Open Scope nat_scope. Open Scope list_scope.

(** ** C57: comparing errors *)
(** Exactly when two errors are equal: I/O errors of the same kind, or the same syntax error, missing template or missing partial. *)
Theorem C57_equality : forall io_kind a b, any_eq io_kind a b = true <->
  (exists i j, a = AnyIo i /\ b = AnyIo j /\ io_kind i = io_kind j) \/ (a = b /\ comparable a).
Proof.
  intros io_kind a b. split.
  - destruct a as [x|x|x|x], b as [y|y|y|y]; cbn [any_eq]; intros H; try discriminate H.
    + right. split; [|exact I]. unfold syntax_eq in H. apply andb_prop in H. destruct H as [H1 H2]. apply streq_eq in H2. destruct (serr_eq_dec (se_kind x) (se_kind y)) as [E|]; [|discriminate H1].
      destruct x as [k i], y as [k' i']. cbn in *. subst. reflexivity.
    + right. destruct x as [n| | | | | | | | | | ], y as [n'| | | | | | | | | | ]; try discriminate H. cbn [render_eq] in H. apply streq_eq in H. subst. split; [reflexivity | exact I].
    + right. apply streq_eq in H. subst. split; [reflexivity | exact I].
    + left. exists x, y. apply Nat.eqb_eq in H. auto.
  - intros [(i & j & -> & -> & E)|[<- C]]; [apply Nat.eqb_eq, E|]. destruct a as [x|x|x|x]; cbn in *; [|destruct x; try contradiction; apply streq_refl|apply streq_refl|contradiction].
    unfold syntax_eq. destruct (serr_eq_dec (se_kind x) (se_kind x)) as [_|F]; [apply streq_refl | contradiction F; reflexivity].
Qed.
Theorem C57_symmetric : forall io_kind a b, any_eq io_kind a b = true -> any_eq io_kind b a = true.
Proof.
  intros io_kind a b H. apply C57_equality in H. apply C57_equality. destruct H as [(i & j & -> & -> & E)|[<- C]]; [left; exists j, i; auto | right; auto].
Qed.
Theorem C57_transitive : forall io_kind a b c, any_eq io_kind a b = true -> any_eq io_kind b c = true -> any_eq io_kind a c = true.
Proof.
  intros io_kind a b c H1 H2. apply C57_equality in H1, H2. apply C57_equality. destruct H1 as [(i & j & -> & -> & E)|[<- C]]; [|exact H2].
  destruct H2 as [(i' & j' & F & -> & E')|[<- C]]; [|contradiction C]. injection F as <-. left. exists i, j'. split; [reflexivity|]. split; [reflexivity|]. congruence.
Qed.
(** Equal errors show the same text, both ways of showing them, unless they are I/O errors. *)
Theorem C57_equal_same_text : forall io_kind io_text a b, any_eq io_kind a b = true -> (forall i, a <> AnyIo i) ->
  any_msg io_text a = any_msg io_text b /\ any_debug io_text a = any_debug io_text b.
Proof.
  intros io_kind io_text a b H N. apply C57_equality in H. destruct H as [(i & j & -> & _)|[<- C]]; [contradiction (N i); reflexivity | split; reflexivity].
Qed.
(** The types claim [Eq], but a render error other than a missing partial at the top is not equal to itself: among them a missing
    partial inside a block. *)
Theorem C57_reflexive_refuted : forall io_kind e, (forall n, e <> RePartialNotFound n) -> any_eq io_kind (AnyRender e) (AnyRender e) = false.
Proof. intros io_kind e H. destruct e as [n| | | | | | | | | | ]; try reflexivity. contradiction (H n); reflexivity. Qed.
Example C57_nonvacuous :
  any_eq (fun i => i) (AnySyntax (mkSErr SBlockName (lit "x"))) (AnySyntax (mkSErr SBlockName (lit "x"))) = true
  /\ any_eq (fun _ => 0) (AnyIo 3) (AnyIo 4) = true
  /\ any_eq (fun i => i) (AnyRender (RePartialNotFound (lit "p"))) (AnyRender (RePartialNotFound (lit "p"))) = true
  /\ any_eq (fun i => i) (AnyRender (ReHelper (HeRender (RePartialNotFound (lit "p"))))) (AnyRender (ReHelper (HeRender (RePartialNotFound (lit "p"))))) = false.
Proof. vm_compute. repeat split. Qed.

(** ** C58: messages *)
(** Wrapping an error while it travels through helpers does not change its message. *)
Scheme render_error_mut := Induction for render_error Sort Prop with helper_error_mut := Induction for helper_error Sort Prop.
Theorem C58_wrapping_invisible : forall io_text e, render_msg io_text e = rerr_msg io_text (flatten e).
Proof.
  intros io_text e. induction e using render_error_mut with (P0 := fun h => helper_msg io_text h = rerr_msg io_text (flatten_helper h)); try reflexivity; cbn; assumption.
Qed.
(** Every message of a syntax error starts the same way, and different kinds of errors have different messages. *)
Theorem C58_syntax_prefix : forall k, exists s, serr_msg k = lit "Syntax error, " ++ s.
Proof.
  intros k. exists (skipn 14 (serr_msg k)). rewrite <- (firstn_skipn 14 (serr_msg k)) at 1. f_equal. destruct k; vm_compute; reflexivity.
Qed.
Definition serr_code (k : serr) : nat :=
  match k with
  | SExpectedIdentifier => 0 | SExpectedPath => 1 | SBlockName => 2 | SLiteralNewline => 3 | SPartialPosition => 4
  | SSubExprNotOpen => 5 | SSubExprTargetNotAllowed => 6 | SPathDelimiterNotAllowed => 7 | SElseNotAllowed => 8
  | SUnexpectedPathExplicitThis => 9 | SUnexpectedPathParent => 10 | SUnexpectedPathLocal => 11
  | SUnexpectedPathDelimiter => 12 | SUnexpectedPathParentWithLocal => 13 | SUnexpectedPathParentWithExplicit => 14
  | SExpectedPathDelimiter => 15 | SOpenSubExpression => 16 | STagNameMismatch => 17 | SBlockNotOpen => 18
  | SSubExpressionNotTerminated => 19 | SLinkNotTerminated => 20 | SRawBlockOpenNotTerminated => 21
  | SRawBlockNotTerminated => 22 | SRawCommentNotTerminated => 23 | SRawStatementNotTerminated => 24
  | SCommentNotTerminated => 25 | SBlockTargetSubExpr => 26 | SEmptyPath => 27 | SComponentType => 28
  | SMixedPartialConditional => 29 | STokenError => 30 | STokenCallTarget => 31 | STokenJsonLiteral => 32
  | STokenParameter => 33 | STokenHashKeyValue => 34 | STokenRawLiteral => 35 | STokenDoubleQuoteLiteral => 36
  | STokenSingleQuoteLiteral => 37 | STokenArrayLiteral => 38 | STokenLink => 39 | STokenParameterPath => 40
  | STokenEndRawBlock => 41
  end.
Definition serrs : list serr :=
  [SExpectedIdentifier; SExpectedPath; SBlockName; SLiteralNewline; SPartialPosition; SSubExprNotOpen; SSubExprTargetNotAllowed; SPathDelimiterNotAllowed; SElseNotAllowed;
   SUnexpectedPathExplicitThis; SUnexpectedPathParent; SUnexpectedPathLocal; SUnexpectedPathDelimiter; SUnexpectedPathParentWithLocal; SUnexpectedPathParentWithExplicit;
   SExpectedPathDelimiter; SOpenSubExpression; STagNameMismatch; SBlockNotOpen; SSubExpressionNotTerminated; SLinkNotTerminated; SRawBlockOpenNotTerminated;
   SRawBlockNotTerminated; SRawCommentNotTerminated; SRawStatementNotTerminated; SCommentNotTerminated; SBlockTargetSubExpr; SEmptyPath; SComponentType;
   SMixedPartialConditional; STokenError; STokenCallTarget; STokenJsonLiteral; STokenParameter; STokenHashKeyValue; STokenRawLiteral; STokenDoubleQuoteLiteral;
   STokenSingleQuoteLiteral; STokenArrayLiteral; STokenLink; STokenParameterPath; STokenEndRawBlock].
Lemma all_serrs k : In k serrs.
Proof. apply (nth_error_In _ (serr_code k)). destruct k; reflexivity. Qed.
Theorem C58_syntax_distinct : forall k k', serr_msg k = serr_msg k' -> k = k'.
Proof.
  intros k k' H.
  assert (C : forallb (fun a => forallb (fun b => orb (negb (streq (serr_msg a) (serr_msg b))) (serr_code a =? serr_code b)) serrs) serrs = true) by (vm_compute; reflexivity).
  rewrite forallb_forall in C. specialize (C k (all_serrs k)). rewrite forallb_forall in C. specialize (C k' (all_serrs k')). rewrite H, streq_refl in C. cbn in C. apply Nat.eqb_eq in C.
  assert (D : forall a, nth_error serrs (serr_code a) = Some a) by (intros a; destruct a; reflexivity). pose proof (D k) as Dk. rewrite C, D in Dk. congruence.
Qed.
(** the first [c] of a text *)
Lemma cut_eq (c : chr) a b x y : ~ In c a -> ~ In c x -> a ++ c :: b = x ++ c :: y -> a = x /\ b = y.
Proof.
  revert x. induction a as [|d a IH]; intros x Ha Hx E; destruct x as [|z x]; cbn in *.
  - injection E as E. auto.
  - injection E as -> _. contradiction Hx. auto.
  - injection E as -> _. contradiction Ha. auto.
  - injection E as -> E. destruct (IH x) as [-> ->]; auto.
Qed.
(** The long form shows the kind of error and the whole report: it determines the error. *)
Theorem C58_syntax_debug : forall e, syntax_debug e = serr_msg (se_kind e) ++ [10%N] ++ se_info e /\ forall e', syntax_debug e = syntax_debug e' -> e = e'.
Proof.
  intros e. split; [reflexivity|]. intros e' H. unfold syntax_debug in H.
  assert (N : forall k, ~ In 10%N (serr_msg k)).
  { intros k. assert (C : forallb (fun a => forallb (fun c => negb (N.eqb c 10)) (serr_msg a)) serrs = true) by (vm_compute; reflexivity).
    rewrite forallb_forall in C. specialize (C k (all_serrs k)). rewrite forallb_forall in C. intros Hin. specialize (C _ Hin). discriminate C. }
  apply cut_eq in H; [|apply N|apply N]. destruct H as [H1 H2]. apply C58_syntax_distinct in H1. destruct e, e'. cbn in *. subst. reflexivity.
Qed.
(** The message quotes every name the error is about. *)
Theorem C58_quotes_names : forall io_text e n, about e n -> quotes (rerr_msg io_text e) n.
Proof.
  intros io_text e n H. destruct H; cbn [rerr_msg render_msg helper_msg]; unfold quoted;
  match goal with
  | |- quotes (lit ?a ++ ([39%N] ++ ?x ++ [39%N]) ++ ?r) ?x => exists (lit a), r; rewrite <- !app_assoc; reflexivity
  | |- quotes (lit ?a ++ [39%N] ++ ?x ++ [39%N]) ?x => exists (lit a), []; reflexivity
  | _ => idtac end.
  - exists (lit "Helper " ++ quoted n ++ lit " failed to resolve field "), []. unfold quoted. rewrite <- !app_assoc. reflexivity.
  - exists (lit "Helper " ++ quoted n ++ lit " type assertion failed, expected "), (lit " but got " ++ quoted b). unfold quoted. rewrite <- !app_assoc. reflexivity.
  - exists (lit "Helper " ++ quoted n ++ lit " type assertion failed, expected " ++ quoted a ++ lit " but got "), []. unfold quoted. rewrite <- !app_assoc. reflexivity.
Qed.

(** an error about a name: its message up to the name, the name, the rest *)
Definition shape (e : rerr) : option (str * str * str) :=
  match e with
  | EPartialNotFound n => Some (lit "Partial ", n, lit " not found")
  | EVariableNotFound p n => Some (lit "Variable ", p, lit " not found in " ++ n ++ lit ", check the variable path and verify the template data")
  | EHelperNotFound n => Some (lit "Helper ", n, lit " not found, check the name")
  | EEvaluatePath p => Some (lit "Syntax error while evaluating path ", p, [])
  | EPartialCycle n => Some (lit "Cycle detected whilst processing partial ", n, [])
  | EHelperCycle n => Some (lit "Cycle detected whilst processing helper ", n, [])
  | EPartialIdentifier p => Some (lit "Partial names must be simple identifiers, got path ", p, [])
  | EBlockIdentifier p => Some (lit "Block names must be simple identifiers, got path ", p, [])
  | EBlockTemplate n => Some (lit "Helper ", n, lit " expects a block template")
  | EBlockTemplateNotAllowed n => Some (lit "Helper ", n, lit " does not allow a block template")
  | EArityExact n k => Some (lit "Helper ", n, lit " got invalid arity expects " ++ N_str k ++ lit " arguments(s)")
  | EArityRange n a b => Some (lit "Helper ", n, lit " got invalid arity expects " ++ N_str a ++ lit "-" ++ N_str b ++ lit " argument(s)")
  | EArgumentTypeString n i => Some (lit "Helper ", n, lit " got invalid argument at index " ++ N_str i ++ lit ", string expected")
  | ELookupField n f => Some (lit "Helper ", n, lit " failed to resolve field " ++ quoted f)
  | EInvalidNumericalOperand n => Some (lit "Helper ", n, lit " got invalid numerical operand")
  | ETypeAssert n a b => Some (lit "Helper ", n, lit " type assertion failed, expected " ++ quoted a ++ lit " but got " ++ quoted b)
  | _ => None
  end.
Lemma shape_msg io e a n r : shape e = Some (a, n, r) -> rerr_msg io e = a ++ 39%N :: n ++ 39%N :: r /\ about e n /\ ~ In 39%N a.
Proof.
  intros H. destruct e; cbn [shape] in H; try discriminate H; injection H as <- <- <-;
  (split; [cbn [rerr_msg render_msg helper_msg]; unfold quoted; rewrite <- ?app_assoc; reflexivity|]; split; [constructor|]; vm_compute; intuition discriminate).
Qed.
Lemma some3 (a b c x y z : str) : Some (a, b, c) = Some (x, y, z) -> a = x /\ b = y /\ c = z.
Proof. intros H. injection H as <- <- <-. auto. Qed.
Lemma digits_cut c c' a b x y : all_digits a = true -> all_digits b = true -> is_digit c = false -> is_digit c' = false ->
  a ++ c :: x = b ++ c' :: y -> a = b /\ c = c' /\ x = y.
Proof.
  revert b. induction a as [|d a IH]; intros b Ha Hb Hc Hc' E; destruct b as [|z b]; cbn in *.
  - injection E as -> ->. auto.
  - injection E as -> _. apply andb_prop in Hb. destruct Hb. congruence.
  - injection E as -> _. apply andb_prop in Ha. destruct Ha. congruence.
  - injection E as -> E. apply andb_prop in Ha, Hb. destruct Ha, Hb. destruct (IH b) as (-> & -> & ->); auto.
Qed.
Lemma N_str_inj n m : N_str n = N_str m -> n = m.
Proof. intros H. rewrite <- (digits_val_N n), <- (digits_val_N m), H. reflexivity. Qed.
Lemma N_cut n m c c' x y : is_digit c = false -> is_digit c' = false -> N_str n ++ c :: x = N_str m ++ c' :: y -> n = m /\ c = c' /\ x = y.
Proof. intros Hc Hc' E. destruct (digits_cut _ _ _ _ _ _ (N_str_digits n) (N_str_digits m) Hc Hc' E) as (A & B). split; [apply N_str_inj, A | exact B]. Qed.
(** The message tells errors apart, as long as the names contain no apostrophe: only the report of a syntax error is not part of it. *)
Theorem C58_distinct : forall io_text e e', worded e -> worded e' -> plain_names e -> plain_names e' -> rerr_msg io_text e = rerr_msg io_text e' ->
  e = e' \/ exists x x', e = ESyntax x /\ e' = ESyntax x' /\ se_kind x = se_kind x'.
Proof.
  intros io e e' We We' Pe Pe' H. destruct (shape e) as [[[a n] r]|] eqn:S, (shape e') as [[[a' n'] r']|] eqn:S'.
  - left. destruct (shape_msg io _ _ _ _ S) as (M & A & Q). destruct (shape_msg io _ _ _ _ S') as (M' & A' & Q'). rewrite M, M' in H.
    apply cut_eq in H; [|exact Q|exact Q']. destruct H as [Ea H]. apply cut_eq in H; [|apply Pe, A|apply Pe', A']. destruct H as [En Er]. clear M M' A A' Q Q'. subst a' n' r'.
    destruct e; cbn [shape] in S; try discriminate S; apply some3 in S; destruct S as (<- & <- & <-);
    destruct e'; cbn [shape] in S'; try discriminate S'; apply some3 in S'; destruct S' as (E1 & E2 & E3); subst; try reflexivity;
    try (vm_compute in E1; discriminate E1); try (apply (f_equal (firstn 18)) in E3; lazy in E3; discriminate E3).
    + apply app_inv_head, app_inv_tail in E3. subst. reflexivity.
    + apply app_inv_head, N_cut in E3; [|reflexivity|reflexivity]. destruct E3 as (-> & _). reflexivity.
    + apply app_inv_head, N_cut in E3; [|reflexivity|reflexivity]. destruct E3 as (_ & E3 & _). discriminate E3.
    + apply app_inv_head, N_cut in E3; [|reflexivity|reflexivity]. destruct E3 as (_ & E3 & _). discriminate E3.
    + apply app_inv_head, N_cut in E3; [|reflexivity|reflexivity]. destruct E3 as (-> & _ & E3). apply N_cut in E3; [|reflexivity|reflexivity]. destruct E3 as (-> & _). reflexivity.
    + apply app_inv_head, N_cut in E3; [|reflexivity|reflexivity]. destruct E3 as (-> & _). reflexivity.
    + apply app_inv_head in E3. unfold quoted in E3. injection E3 as E3. apply app_inv_tail in E3. subst. reflexivity.
    + apply app_inv_head in E3. unfold quoted in E3. rewrite <- !app_assoc in E3. injection E3 as E3. apply cut_eq in E3; [|apply Pe'; constructor|apply Pe; constructor].
      destruct E3 as [-> E3]. injection E3 as E3. apply app_inv_tail in E3. subst. reflexivity.
  - exfalso. destruct e; cbn [shape] in S; try discriminate S; injection S as <- <- <-; destruct e' as [ | | | | | | | | | | | | | | | | | |x| ]; cbn [shape] in S'; try discriminate S'; try contradiction;
    try (apply (f_equal (firstn 7)) in H; lazy in H; discriminate H);
    destruct (C58_syntax_prefix (se_kind x)) as (z & Ez); cbn [rerr_msg helper_msg] in H; rewrite Ez in H;
    solve [apply (f_equal (firstn 1)) in H; lazy in H; discriminate H | apply (f_equal (firstn 13)) in H; lazy in H; discriminate H].
  - exfalso. destruct e'; cbn [shape] in S'; try discriminate S'; injection S' as <- <- <-; destruct e as [ | | | | | | | | | | | | | | | | | |x| ]; cbn [shape] in S; try discriminate S; try contradiction;
    try (apply (f_equal (firstn 7)) in H; lazy in H; discriminate H);
    destruct (C58_syntax_prefix (se_kind x)) as (z & Ez); cbn [rerr_msg helper_msg] in H; rewrite Ez in H;
    solve [apply (f_equal (firstn 1)) in H; lazy in H; discriminate H | apply (f_equal (firstn 13)) in H; lazy in H; discriminate H].
  - destruct e as [ | | | | | | | | | | | | | | | | | |x| ]; cbn [shape] in S; try discriminate S; try contradiction; destruct e' as [ | | | | | | | | | | | | | | | | | |x'| ]; cbn [shape] in S'; try discriminate S'; try contradiction.
    + left. reflexivity.
    + exfalso. cbn [rerr_msg helper_msg] in H. destruct (C58_syntax_prefix (se_kind x')) as (z & Ez). rewrite Ez in H. apply (f_equal (firstn 1)) in H. lazy in H. discriminate H.
    + exfalso. cbn [rerr_msg helper_msg] in H. destruct (C58_syntax_prefix (se_kind x)) as (z & Ez). rewrite Ez in H. apply (f_equal (firstn 1)) in H. lazy in H. discriminate H.
    + right. exists x, x'. split; [reflexivity|]. split; [reflexivity|]. apply C58_syntax_distinct. exact H.
Qed.
(** The apostrophe matters. *)
Example C58_apostrophe_needed : rerr_msg (fun _ => []) (ELookupField (lit "a' failed to resolve field 'b") (lit "c")) = rerr_msg (fun _ => []) (ELookupField (lit "a") (lit "b' failed to resolve field 'c")).
Proof. vm_compute. reflexivity. Qed.
(** What a helper gets to see of an error of a template it renders with [once]: its message *)
Theorem C58_once_message : forall K en file content data st e s, once_ K en file content data st = RErr e s ->
  s = st /\ ((exists x fs, compile (pl_penv (en_plat en)) (mkOpts file 0 0) content = PErr x fs /\ e = EMessage (serr_msg (se_kind x)))
             \/ (exists n fs r s', compile (pl_penv (en_plat en)) (mkOpts file 0 0) content = POk n fs
                  /\ render_ K (en_once en file data) (mkTpl content n) (r_new (r_stack st)) = RErr r s' /\ e = EMessage (rerr_msg (pl_iotext (en_plat en)) r))).
Proof.
  intros K en file content data st e s H. unfold once_ in H. destruct (compile _ _ _) as [n fs|x fs|p|] eqn:C; try discriminate H.
  - destruct (render_ _ _ _ _) as [u s'|r s'|p|] eqn:R; try discriminate H. injection H as <- <-. split; [reflexivity|]. right. exists n, fs, r, s'. auto.
  - injection H as <- <-. split; [reflexivity|]. left. exists x, fs. auto.
Qed.
Example C58_nonvacuous :
  (exists x, registry_once 100 pl0 reg0 (lit "t") (lit "{{#if true}}{{> p}}{{/if}}") JNull = AErr x /\ error_msg (fun _ => []) x = lit "Partial 'p' not found")
  /\ (exists x, registry_once 100 pl0 reg0 (lit "t") (lit "{{/if}} ") JNull = AErr x /\ error_msg (fun _ => []) x = lit "Syntax error, got a closing tag but no block is open")
  /\ (exists x, registry_once 100 pl0 reg0 (lit "t") (lit "{{lookup}}") JNull = AErr x /\ error_msg (fun _ => []) x = lit "Helper 'lookup' got invalid arity expects 2 arguments(s)")
  /\ (exists x, registry_render 100 pl0 reg0 (lit "t") JNull = AErr x /\ error_msg (fun _ => []) x = lit "Template not found 't'").
Proof. split; [|split; [|split]]; eexists; split; vm_compute; reflexivity. Qed.

Print Assumptions C57_equality. Print Assumptions C57_symmetric. Print Assumptions C57_transitive. Print Assumptions C57_equal_same_text. Print Assumptions C57_reflexive_refuted.
Print Assumptions C58_wrapping_invisible. Print Assumptions C58_syntax_prefix. Print Assumptions C58_syntax_distinct. Print Assumptions C58_syntax_debug.
Print Assumptions C58_quotes_names. Print Assumptions C58_distinct. Print Assumptions C58_once_message.
