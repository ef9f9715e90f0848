(** * Props_Lexer: theorems about src/lexer.rs (C01-C04).  Statements only; proofs in LexerFacts. *)
From Coq Require Import String.
From Verif Require Import Str Regex Lexer Spec_Lexer StrFacts RegexFacts LexerFacts.
Open Scope nat_scope. Open Scope list_scope.

(** C01.  For every source the token spans start at byte 0, are non-empty, contiguous, end at the
    source's length, can all be read back from the source, and concatenate to it. *)
Theorem C01_tokens_tile_source : forall s,
  exists l xs, collect s false = Some l
    /\ tiles 0 (blen s) l
    /\ token_texts s l = Some xs /\ concat xs = s /\ Forall (fun x => x <> []) xs.
Proof. exact lex_tiles. Qed.
Print Assumptions C01_tokens_tile_source.

(** C02.  Every token is picked by the maximal munch rule [next_token] in the mode it was read in, from
    the characters that remain at its start. *)
Theorem C02_maximal_munch : forall s l l1 t l2,
  lex s = Some l -> l = l1 ++ t :: l2 ->
  exists rest n, drop_b (t_start t) s = Some rest
    /\ next_token (kind_mode (t_kind t)) rest (t_kind t) n
    /\ t_end t = t_start t + blen (firstn n rest).
Proof. exact lex_munch. Qed.
Print Assumptions C02_maximal_munch.

(** C02.  An error token covers one character, stands where no pattern of its mode matches, and never
    occurs in document, comment, raw comment or raw statement mode. *)
Theorem C02_error_tokens : forall s l t,
  lex s = Some l -> In t l -> t_kind t = err_kind (kind_mode (t_kind t)) ->
  ~ In (kind_mode (t_kind t)) [MBlock; MRawComment; MRawStatement; MComment]
  /\ exists rest, drop_b (t_start t) s = Some rest /\ rest <> []
      /\ t_end t = t_start t + blen (firstn 1 rest)
      /\ forall r k n, In (r, k) (pats (kind_mode (t_kind t))) -> ~ pat_match r rest n.
Proof. exact lex_errors. Qed.
Print Assumptions C02_error_tokens.

(** C03.  The token stream follows the documented nesting of constructs. *)
Theorem C03_mode_discipline : forall s l, lex s = Some l -> stream (map t_kind l).
Proof. exact lex_grammar. Qed.
Print Assumptions C03_mode_discipline.

(** C03.  The source determines the stream: it is the one and only stream that obeys the token rule. *)
Theorem C03_unique_stream : forall s l, lex s = Some l <-> tokenizes MBlock 0 s l.
Proof. exact lex_unique. Qed.
Print Assumptions C03_unique_stream.

(** C04.  Normalisation covers the same bytes, keeps the other tokens in order, merges all text. *)
Theorem C04_normalised_collect : forall s,
  exists l l', collect s false = Some l /\ collect s true = Some l'
    /\ tiles 0 (blen s) l'
    /\ (exists xs, token_texts s l' = Some xs /\ concat xs = s)
    /\ filter (fun t => negb (is_text (t_kind t))) l' = filter (fun t => negb (is_text (t_kind t))) l
    /\ no_adjacent_text l'
    /\ forall t, In t l' -> is_text (t_kind t) = true -> t_kind t = TBlock BText.
Proof. exact collect_normalised. Qed.
Print Assumptions C04_normalised_collect.

(** ** The hypotheses are met by real inputs *)
Definition ex_src : str := lit "a {{#if (x ""q"")}}\{{b}}{{!c}}{{/if}} [[l|m]]".
Example ex_lex_some : exists l, lex ex_src = Some l /\ length l = 28 /\ stream (map t_kind l).
Proof.
  destruct (lex ex_src) as [l|] eqn:E; [|vm_compute in E; discriminate].
  exists l. split; [reflexivity|]. split; [|apply C03_mode_discipline in E; exact E].
  vm_compute in E. injection E as <-. reflexivity.
Qed.
(** an error token exists: the backslash inside a string *)
Example ex_error_token : exists l t, lex (lit "{{a ""x\y""}}") = Some l /\ In t l /\ t_kind t = TDouble QError.
Proof.
  eexists. exists (Tok (TDouble QError) 6 7). split; [vm_compute; reflexivity|].
  split; [vm_compute; tauto | reflexivity].
Qed.
Example ex_normalised :
  option_map (map (fun t => (t_start t, t_end t))) (collect (lit "ab{{c}}de") true) =
  Some [(0, 2); (2, 4); (4, 5); (5, 7); (7, 9)].
Proof. vm_compute. reflexivity. Qed.
