(** * BadFacts: how the lexer and the parser treat tags with a mistake (Spec_Bad). *)
From Coq Require Import Lia String.
From Verif Require Import Str Regex Lexer Json Ast ErrInfo Parser StrFacts RegexFacts Spec_Lexer LexerFacts CallFacts BlockFacts DocFacts Spec_Source
  SynLex SynStr SynPath SynCall SynTag SynDoc SynItem SynBlock Spec_Bad.
Open Scope nat_scope. Open Scope list_scope.
Notation at_ := SynPath.at_.

Definition nonblock (t : token) : Prop := match t_kind t with TBlock _ => False | _ => True end.
Lemma nonblock_param k a b : nonblock (Tok (TParam k) a b).
Proof. exact I. Qed.
Lemma gap_nonblock t : gap_tok t -> nonblock t.
Proof. unfold nonblock. intros [->| ->]; exact I. Qed.
Lemma gaps_nonblock l : Forall gap_tok l -> Forall nonblock l.
Proof. intro H. eapply Forall_impl; [|exact H]. apply gap_nonblock. Qed.

(** ** Lexing to the end of a tag *)
Lemma closes_lex z rest : closes z -> nobrace rest -> next_token MParam (z ++ rest) (TParam KEnd) (length z).
Proof.
  intros (b & r & -> & Hr) Hb. apply next_close; [|exact Hb]. cbn in Hr. destruct Hr as [<-|[<-|[<-|[]]]]; cbn; tauto.
Qed.
Lemma closes_first z : closes z -> exists d z', z = d :: z' /\ In d [125; 126]%N.
Proof.
  intros (b & r & -> & Hr). cbn in Hr. destruct b; [exists 126%N|exists 125%N]; destruct Hr as [<-|[<-|[<-|[]]]]; eexists; (split; [reflexivity|cbn; tauto]).
Qed.
Lemma junk_token c j d rest : ~ In c [34; 39; 91; 125; 126]%N -> In d [125; 126]%N ->
  exists w j' k, c :: j = w ++ j' /\ w <> [] /\ next_token MParam (w ++ j' ++ d :: rest) (TParam k) (length w) /\ next_mode (TParam k) = MParam.
Proof.
  intros Hc Hd. set (s := c :: j ++ d :: rest).
  pose proof (lex1_next MParam s ltac:(discriminate)) as H. destruct (lex1 MParam s) as [k n]. cbn [fst snd] in H.
  assert (E : forall v, In v [34; 39; 91; 125; 126]%N -> (v =? c)%N = false) by (intros v Hv; apply N.eqb_neq; intros ->; now apply Hc).
  assert (X : forall r k, In (r, k) (tag TParam pats_param) -> negb (re_chars r d) || negb (re_first r c) = true
               /\ (re_first r c = true -> exists x, k = TParam x /\ next_mode k = MParam)).
  { intros r k0 Hin. apply in_tag in Hin. destruct Hin as (a & -> & Hin). cbn [pats_param In] in Hin.
    assert (E1 := E 34%N ltac:(cbn; tauto)). assert (E2 := E 39%N ltac:(cbn; tauto)). assert (E3 := E 91%N ltac:(cbn; tauto)).
    assert (E4 := E 125%N ltac:(cbn; tauto)). assert (E5 := E 126%N ltac:(cbn; tauto)).
    repeat (destruct Hin as [[= <- <-]|Hin];
      [split; [cbn in Hd; destruct Hd as [<-|[<-|[]]];
               first [reflexivity | (replace (re_first _ c) with false by (cbn -[N.eqb]; rewrite ?E1, ?E2, ?E3, ?E4, ?E5; reflexivity); apply orb_true_r)]
              |intro Hf; first [(exfalso; cbn -[N.eqb] in Hf; rewrite ?E1, ?E2, ?E3, ?E4, ?E5 in Hf; discriminate Hf) | eexists; split; reflexivity]]|]).
    contradiction. }
  pose proof (next_token_len _ _ _ _ H) as Hn.
  assert (Hle : n <= length (c :: j)).
  { destruct H as [(l1 & r & l2 & E0 & H1 & _)|(_ & _ & -> & _)]; [|cbn; lia].
    assert (Hin : In (r, k) (tag TParam pats_param)) by (change (tag TParam pats_param) with (pats MParam); rewrite E0; apply in_elt).
    destruct (X r k Hin) as [X1 _]. eapply bound_both; [exact X1|exact H1]. }
  assert (Hk : exists x, k = TParam x /\ next_mode k = MParam).
  { destruct H as [(l1 & r & l2 & E0 & H1 & _)|(_ & -> & _)]; [|exists KError; split; reflexivity].
    assert (Hin : In (r, k) (tag TParam pats_param)) by (change (tag TParam pats_param) with (pats MParam); rewrite E0; apply in_elt).
    destruct (X r k Hin) as [_ X2]. apply X2. destruct (re_first r c) eqn:Ef; [reflexivity|]. exfalso. eapply first_bound; [exact Ef|exact H1]. }
  destruct Hk as (x & -> & Hm). exists (firstn n (c :: j)), (skipn n (c :: j)), x.
  split; [now rewrite firstn_skipn|]. split; [destruct n; [lia|discriminate]|]. split; [|exact Hm].
  rewrite app_assoc, firstn_skipn, firstn_length_le by exact Hle. exact H.
Qed.
Lemma rest_lex n : forall j, length j <= n -> junk j -> forall z, closes z -> forall p rest, nobrace rest -> exists ts,
  ts <> [] /\ Forall nonblock ts
  /\ forall L, tokenizes MBlock (p + blen (j ++ z)) rest L -> tokenizes MParam p ((j ++ z) ++ rest) (ts ++ L).
Proof.
  induction n as [|n IH]; intros j Hn Hj z Hz p rest Hr.
  1: destruct j; [|cbn in Hn; lia].
  2: destruct j as [|c j].
  1,2: exists [Tok (TParam KEnd) p (p + blen z)]; split; [discriminate|]; split; [repeat constructor|];
       intros L HL; cbn [app] in *; eapply (tkz _ _ z); [reflexivity|now apply closes_lex|reflexivity|exact HL].
  destruct (closes_first z Hz) as (d & z' & Ez & Hd).
  destruct (junk_token c j d (z' ++ rest) (Hj c (or_introl eq_refl)) Hd) as (w & j' & k & E & Hw & Hnext & Hm).
  destruct (IH j') with (z := z) (p := p + blen w) (rest := rest) as (ts & T1 & T2 & T3).
  { assert (El : length (c :: j) = length w + length j') by (replace (c :: j) with (w ++ j') by (symmetry; exact E); apply app_length). unfold str, chr in *. destruct w; [congruence|]. cbn [length] in *. lia. }
  { intros x Hx. apply Hj. change (In x (c :: j)). assert (Hi : In x (w ++ j')) by (apply in_or_app; now right). rewrite <- E in Hi. exact Hi. } { exact Hz. } { exact Hr. }
  exists (Tok (TParam k) p (p + blen w) :: ts). split; [discriminate|]. split; [constructor; [exact I|exact T2]|].
  intros L HL. assert (E' : (c :: j) ++ z = w ++ j' ++ z) by (rewrite app_assoc, <- E; reflexivity). rewrite E' in *. rewrite <- !app_assoc. cbn [app].
  eapply (tkz _ _ w); [reflexivity| |reflexivity|].
  - rewrite Ez. cbn [app]. exact Hnext.
  - rewrite Hm, app_assoc. apply T3. rewrite blen_app, Nat.add_assoc in HL. exact HL.
Qed.
Lemma tag_rest_lex s p rest : tag_rest s -> nobrace rest -> exists ts,
  ts <> [] /\ Forall nonblock ts
  /\ forall L, tokenizes MBlock (p + blen s) rest L -> tokenizes MParam p (s ++ rest) (ts ++ L).
Proof. intros (j & z & -> & Hj & Hz) Hr. now apply (rest_lex (length j)). Qed.
Lemma ended_psep s rest : ended s -> psep (s ++ rest).
Proof.
  intros (c & r & -> & Hc). exists c, (r ++ rest). split; [reflexivity|]. unfold seps. unfold blank_chars in Hc. cbn in Hc |- *.
  unfold stray_chars, strays in *. cbn in Hc |- *. tauto.
Qed.

(** ** Words *)
Definition word_tok (k : wkind) : list tparam :=
  match k with
  | WName => [KIdent] | WLocal => [KLocalIdent] | WThis => [KThis] | WDot => [KThisDotSlash] | WUp => [KParentRef]
  | WLiteral => [KTrue; KFalse; KNull; KNumber] | WKey => [KHashKey] | WGt => [KPartial] | WElse => [KElse]
  | WOpen => [KStartSub] | WClose => [KEndSub] | WStray => [KError]
  end.
Lemma next_stray c rest : In c stray_chars -> next_token MParam ([c] ++ rest) (TParam KError) 1.
Proof.
  intro Hc. right. split; [|split; [reflexivity|split; [reflexivity|discriminate]]].
  intros r k n Hin. apply first_bound.
  assert (X : forallb (fun rk => forallb (fun c => negb (re_first (fst rk) c)) stray_chars) (pats MParam) = true) by reflexivity.
  apply (forallb_in _ _ _ X) in Hin. cbn [fst] in Hin. apply (forallb_in _ _ _ Hin) in Hc. now apply negb_true_iff in Hc.
Qed.
Lemma word_lex wk w s rest : word wk w -> followed wk s -> exists k, In k (word_tok wk) /\ next_token MParam (w ++ s ++ rest) (TParam k) (length w).
Proof.
  intros Hw Hf.
  assert (Hp : self_ending wk = false -> psep (s ++ rest)) by (intro E; destruct Hf as [Hf|Hf]; [congruence|now apply ended_psep]).
  destruct Hw as [w H|w [H1 H2]| | | | | | |w H|w H| | | | |c H]; cbn [self_ending] in Hp; cbn [word_tok In].
  - exists KIdent. split; [tauto|]. apply next_name; [exact H|now apply psep_path, Hp].
  - exists KLocalIdent. split; [tauto|]. apply next_local; [exact H1|exact H2|now apply psep_path, Hp].
  - exists KThis. split; [tauto|]. apply (next_word _ KThis); [cbn; tauto|now apply psep_path, Hp].
  - exists KThisDotSlash. split; [tauto|]. apply next_dot_slash.
  - exists KParentRef. split; [tauto|]. apply next_parent.
  - exists KTrue. split; [tauto|]. apply (next_bool true). now apply Hp.
  - exists KFalse. split; [tauto|]. apply (next_bool false). now apply Hp.
  - exists KNull. split; [tauto|]. apply next_null. now apply Hp.
  - exists KNumber. split; [tauto|]. apply next_number; [exact H|now apply Hp].
  - exists KHashKey. split; [tauto|]. now apply next_key.
  - exists KPartial. split; [tauto|]. apply next_gt.
  - exists KElse. split; [tauto|]. apply next_else. now apply Hp.
  - exists KStartSub. split; [tauto|]. apply next_open_sub.
  - exists KEndSub. split; [tauto|]. apply next_close_sub.
  - exists KError. split; [tauto|]. now apply next_stray.
Qed.
Lemma word_mode wk k : In k (word_tok wk) -> next_mode (TParam k) = MParam.
Proof. destruct wk; cbn; intuition (subst; reflexivity). Qed.
