(** * EvalFacts: [Render::evaluate] parses any path text without running out of fuel. *)
From Coq Require Import Lia String.
From Verif Require Import Str Regex Lexer Json Ast ErrInfo Parser Spec_Lexer Spec_Ast StrFacts RegexFacts LexerFacts ParserFacts CallFacts.
Open Scope nat_scope. Open Scope list_scope.

Lemma tokenizes_lang m s l t : tokenizes m 0 s l -> In t l -> t_kind t <> err_kind (kind_mode (t_kind t)) ->
  exists s1 w s2 r, s = s1 ++ w ++ s2 /\ blen s1 = t_start t /\ t_end t = t_start t + blen w
    /\ In (r, t_kind t) (pats (kind_mode (t_kind t))) /\ lang r w.
Proof.
  intros H Hin Hk. apply in_split in Hin. destruct Hin as (l1 & l2 & ->).
  destruct (tokenizes_split _ _ _ _ _ H) as (s1 & s2 & -> & Ht & _).
  inversion Ht as [|? ? w rest k l Hn Ht' E1 E2 E3]; subst. simpl in *. pose proof (next_token_kind _ _ _ _ Hn) as Ek.
  destruct (next_token_lang _ _ _ _ Hn ltac:(rewrite <- Ek; exact Hk)) as (r & Hr & Hl).
  rewrite firstn_app, firstn_all, Nat.sub_diag, firstn_O, app_nil_r in Hl.
  exists s1, w, rest, r. rewrite Ek. repeat split; assumption.
Qed.
Lemma lex_from_good m src l : lex_from m src = Some l -> good src l.
Proof.
  intros H. apply lex_from_tokenizes in H. eapply tokenizes_good; [exact H|]. intros t. apply tokenizes_lang with (m := m), H.
Qed.
Lemma path_from_str_total env s : path_from_str env s <> PFuel.
Proof.
  unfold path_from_str. destruct (lex_from_total MParam s) as (toks & E & _). rewrite E. pose proof (lex_from_good _ _ _ E) as Hg.
  destruct toks as [|t toks]; unfold pnext; cbn [p_toks p_line p_byte]; [discriminate|].
  assert (X : forall k, t_kind t = TParam k -> path_parse (mkPctx env s (lit "unknown")) k t (mkPst toks 0 0) <> PFuel).
  { intros k Ek E'. pose proof (path_parse_post (mkPctx env s (lit "unknown")) k t (mkPst toks 0 0) Hg Ek) as X. rewrite E' in X. exact X. }
  destruct (t_kind t) eqn:Ek; try (unfold perr, perr_n; destruct (err_info _ _ _ _ _ _); discriminate).
  specialize (X _ eq_refl). unfold pbind. destruct (path_parse _ _ _ _); try discriminate. contradiction.
Qed.
