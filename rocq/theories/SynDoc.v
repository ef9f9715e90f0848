(** * SynDoc: lexing and parsing of printed documents (Spec_Source). *)
From Coq Require Import Lia String.
From Verif Require Import Str Regex Lexer Json Ast ErrInfo Parser StrFacts RegexFacts Spec_Lexer LexerFacts CallFacts BlockFacts Spec_Source SynLex SynStr SynPath SynCall SynTag.
Open Scope nat_scope. Open Scope list_scope.
Notation at_ := SynPath.at_.

(** ** Opening delimiters *)
Definition opench (c : chr) : Prop := ~ In c [123; 126; 9; 32; 35; 47; 33]%N.
Definition opens : list (string * str * tblock) :=
  [("{{"%string, [], BStartStatement); ("{{{"%string, [], BStartStatement); ("{{"%string, [35%N], BStartBlockScope); ("{{"%string, [47%N], BEndBlockScope);
   ("{{{{"%string, [], BStartRawBlock); ("{{{{"%string, [47%N], BEndRawBlock)].
Ltac open_tac w := apply (next_concrete MBlock w); [discriminate|reflexivity|]; follow;
  repeat match goal with H : (_ =? _)%N = false |- _ => rewrite !H; clear H end; reflexivity.
(** *** Blanks inside an opening delimiter: all non-empty runs act like one space *)
Definition same_derivs (w w' : str) : Prop := forall r k, In (r, k) (pats MBlock) -> derivs w r = derivs w' r.
Lemma derivs_app u v r : derivs (u ++ v) r = derivs v (derivs u r).
Proof. revert r. induction u as [|c u IH]; intro r; [reflexivity|]. cbn. apply IH. Qed.
Lemma same_app u u' v : same_derivs u u' -> same_derivs (u ++ v) (u' ++ v).
Proof. intros H r k Hin. rewrite !derivs_app. f_equal. eapply H, Hin. Qed.
Lemma same_trans a b c : same_derivs a b -> same_derivs b c -> same_derivs a c.
Proof. intros H1 H2 r k Hin. rewrite (H1 r k Hin). now apply (H2 r k). Qed.
Lemma same_refl a : same_derivs a a.
Proof. intros r k _. reflexivity. Qed.
Definition blanks_ok (a : str) : Prop :=
  Forall (fun rk => deriv 9%N (derivs a (fst rk)) = deriv 32%N (derivs a (fst rk))
                    /\ deriv 32%N (deriv 32%N (derivs a (fst rk))) = deriv 32%N (derivs a (fst rk))
                    /\ deriv 9%N (deriv 32%N (derivs a (fst rk))) = deriv 32%N (derivs a (fst rk))) (pats MBlock).
Lemma blanks_same a g : blanks_ok a -> blank_str g -> g <> [] -> same_derivs (a ++ g) (a ++ [32%N]).
Proof.
  intros Ha Hg Hn r k Hin. rewrite !derivs_app. unfold blanks_ok in Ha. rewrite Forall_forall in Ha. destruct (Ha _ Hin) as (A1 & A2 & A3). cbn [fst] in *.
  set (R := derivs a r) in *. destruct g as [|c g]; [congruence|]. cbn [derivs].
  assert (Hc : deriv c R = deriv 32%N R) by (specialize (Hg c (or_introl eq_refl)); cbn in Hg; destruct Hg as [<-|[<-|[]]]; congruence).
  rewrite Hc. assert (Hg' : blank_str g) by (intros x Hx; apply Hg; now right). clear Hg Hc Hn. induction g as [|d g IH]; [reflexivity|]. cbn [derivs].
  assert (Hd : deriv d (deriv 32%N R) = deriv 32%N R) by (specialize (Hg' d (or_introl eq_refl)); cbn in Hg'; destruct Hg' as [<-|[<-|[]]]; assumption).
  rewrite Hd. apply IH. intros x Hx. apply Hg'. now right.
Qed.
Lemma next_same w w' rest k : same_derivs w w' -> w <> [] -> pick (pats MBlock) w' = Some k ->
  forallb (fun rk => bounded (fst rk) w' rest) (pats MBlock) = true -> next_token MBlock (w ++ rest) k (length w).
Proof.
  intros Hs Hw Hp Hb. apply next_concrete; [exact Hw| |].
  - rewrite <- Hp. assert (H : forall l, (forall r k, In (r, k) l -> derivs w r = derivs w' r) -> pick l w = pick l w').
    { induction l as [|[r k0] l IH]; intro H; [reflexivity|]. cbn [pick]. rewrite (H r k0 (or_introl eq_refl)). destruct (nullable _); [reflexivity|]. apply IH. intros; eapply H; right; eassumption. }
    apply H. exact Hs.
  - rewrite forallb_forall in *. intros [r k0] Hin. specialize (Hb _ Hin). cbn [fst] in *. unfold bounded in *. now rewrite (Hs r k0 Hin).
Qed.
(** the forms of blanks *)
Definition squeeze (g : str) : str := match g with [] => [] | _ => [32%N] end.
Lemma squeeze_same a g : (g <> [] -> blanks_ok a) -> blank_str g -> same_derivs (a ++ g) (a ++ squeeze g).
Proof. intros Ha Hg. destruct g as [|c g]; [apply same_refl|]. apply blanks_same; [now apply Ha|exact Hg|discriminate]. Qed.
Lemma open_blanks l m mark k : In (l, mark, k) opens -> blanks_ok (open_tag l m).
Proof.
  intros Hin. cbn [In opens] in Hin. unfold blanks_ok, open_tag. destruct (tl_before m);
    (destruct Hin as [[= <- <- <-]|[[= <- <- <-]|[[= <- <- <-]|[[= <- <- <-]|[[= <- <- <-]|[[= <- <- <-]|[]]]]]]]; repeat constructor).
Qed.
Lemma hash_blanks m g : blanks_ok (open_tag "{{" m ++ squeeze g ++ [35%N]).
Proof. unfold blanks_ok, open_tag. destruct (tl_before m), g; repeat constructor. Qed.
Lemma next_open l mark k m g b rest : In (l, mark, k) opens -> blank_str g -> blank_str b -> (mark <> [35%N] -> b = []) ->
  mark = [47%N] \/ (exists c r, rest = c :: r /\ opench c) ->
  next_token MBlock ((open_tag l m ++ g ++ mark ++ b) ++ rest) (TBlock k) (length (open_tag l m ++ g ++ mark ++ b)).
Proof.
  intros Hin Hg Hb Hmb Hrest.
  assert (Hs : same_derivs (open_tag l m ++ g ++ mark ++ b) (open_tag l m ++ squeeze g ++ mark ++ squeeze b)).
  { apply same_trans with (open_tag l m ++ squeeze g ++ mark ++ b).
    - rewrite !(app_assoc (open_tag l m)). apply same_app. apply squeeze_same; [intros _; eapply open_blanks; exact Hin|exact Hg].
    - destruct b as [|c b]; [apply same_refl|]. assert (Hm : mark = [35%N]) by (destruct (list_eq_dec N.eq_dec mark [35%N]) as [|Hn]; [assumption|specialize (Hmb Hn); discriminate]).
      subst mark. rewrite !(app_assoc (squeeze g)), !(app_assoc (open_tag l m)). apply squeeze_same; [|exact Hb]. intros _.
      assert (Hl : l = "{{"%string) by (cbn [In opens] in Hin; destruct Hin as [[= <-]|[[= <-]|[[= <-]|[[= <-]|[[= <-]|[[= <-]|[]]]]]]]; congruence).
      subst l. rewrite <- app_assoc. apply hash_blanks. }
  apply (next_same _ (open_tag l m ++ squeeze g ++ mark ++ squeeze b)); [exact Hs| | |].
  - cbn [In opens] in Hin. unfold open_tag. destruct Hin as [[= <- <- <-]|[[= <- <- <-]|[[= <- <- <-]|[[= <- <- <-]|[[= <- <- <-]|[[= <- <- <-]|[]]]]]]]; discriminate.
  - clear -Hin Hmb. cbn [In opens] in Hin. unfold open_tag.
    destruct Hin as [[= <- <- <-]|[[= <- <- <-]|[[= <- <- <-]|[[= <- <- <-]|[[= <- <- <-]|[[= <- <- <-]|[]]]]]]];
      try (rewrite Hmb by discriminate); destruct (tl_before m), g; try reflexivity; destruct b; reflexivity.
  - clear Hs Hg Hb. destruct Hrest as [->|(c & r & -> & Hc)].
    + rewrite Hmb by discriminate. clear Hmb. cbn [In opens] in Hin. unfold open_tag.
      destruct Hin as [[= <- <-]|[[= <- <-]|[[= <- <-]|[[= <- <-]|[[= <- <-]|[[= <- <-]|[]]]]]]];
        destruct (tl_before m), g, rest; reflexivity.
    + unfold opench in Hc. cbn in Hc.
      assert (H1 : (123 =? c)%N = false) by (apply N.eqb_neq; tauto). assert (H2 : (126 =? c)%N = false) by (apply N.eqb_neq; tauto).
      assert (H3 : (c =? 9)%N = false) by (apply N.eqb_neq; intro; subst; tauto). assert (H4 : (c =? 32)%N = false) by (apply N.eqb_neq; intro; subst; tauto).
      assert (H5 : (35 =? c)%N = false) by (apply N.eqb_neq; tauto). assert (H6 : (47 =? c)%N = false) by (apply N.eqb_neq; tauto).
      assert (H7 : (33 =? c)%N = false) by (apply N.eqb_neq; tauto). clear Hc.
      cbn [In opens] in Hin. unfold open_tag.
      destruct Hin as [[= <- <- <-]|[[= <- <- <-]|[[= <- <- <-]|[[= <- <- <-]|[[= <- <- <-]|[[= <- <- <-]|[]]]]]]];
        try (rewrite Hmb by discriminate); clear Hmb; destruct (tl_before m), g as [|? g]; [..|];
        try (destruct b as [|? b]); follow; rewrite ?H1, ?H2, ?H3, ?H4, ?H5, ?H6, ?H7; reflexivity.
Qed.
Lemma first_opench s : first_ok s -> exists c r, s = c :: r /\ opench c.
Proof. intros (c & r & -> & H). exists c, r. split; [reflexivity|]. unfold opench. cbn in *. tauto. Qed.


(** ** A rule with more look-ahead: after [w] come the characters [u] *)
Definition capped (r : re) (w u rest : str) : bool :=
  bounded r (w ++ u) rest && forallb (fun n => negb (nullable (derivs (firstn n (w ++ u)) r))) (seq (S (length w)) (length u)).
Lemma capped_spec r w u rest n : capped r w u rest = true -> pat_match r (w ++ u ++ rest) n -> n <= length w.
Proof.
  intros H Hm. apply andb_true_iff in H. destruct H as [Hb Hn]. rewrite app_assoc in Hm.
  pose proof (bounded_spec _ _ _ _ Hb Hm) as Hle. rewrite app_length in Hle.
  destruct (le_lt_dec n (length w)) as [|Hlt]; [assumption|exfalso].
  rewrite forallb_forall in Hn. specialize (Hn n ltac:(apply in_seq; lia)).
  destruct Hm as [_ Hl]. rewrite firstn_app in Hl. replace (n - length (w ++ u)) with 0 in Hl by (rewrite app_length; lia).
  rewrite firstn_O, app_nil_r in Hl. rewrite <- (app_nil_r (firstn n (w ++ u))) in Hl. apply derivs_spec in Hl. apply nullable_spec in Hl.
  unfold chr in *. rewrite Hl in Hn. discriminate.
Qed.
Lemma next_capped m w u rest k : w <> [] -> pick (pats m) w = Some k ->
  forallb (fun rk => capped (fst rk) w u rest) (pats m) = true -> next_token m (w ++ u ++ rest) k (length w).
Proof.
  intros Hw Hp Hb. left. destruct (pick_spec _ _ _ Hp) as (hi & r & lo & E & Hl & Hh).
  exists hi, r, lo. split; [assumption|]. split; [|split].
  - split; [|now rewrite firstn_app, firstn_all, Nat.sub_diag, firstn_O, app_nil_r].
    rewrite app_length. destruct w; [congruence|cbn; lia].
  - intros r' k' n' Hin Hm. rewrite forallb_forall in Hb. specialize (Hb _ Hin). eapply capped_spec; eauto.
  - intros r' k' Hin [_ Hm]. apply (Hh _ _ Hin).
    now rewrite firstn_app, firstn_all, Nat.sub_diag, firstn_O, app_nil_r in Hm.
Qed.

(** [{{!], [{{!--], [\{{], [[[] and [\[[] *)
Lemma next_raw_comment rest : next_token MBlock (lit "{{!--" ++ rest) (TBlock BStartRawComment) 5.
Proof. apply (next_concrete MBlock (lit "{{!--")); [discriminate|reflexivity|]. destruct rest; reflexivity. Qed.
Lemma next_comment rest : (forall r, rest <> lit "--" ++ r) -> next_token MBlock (lit "{{!" ++ rest) (TBlock BStartComment) 3.
Proof.
  intros H. destruct rest as [|c rest].
  { apply (next_concrete MBlock (lit "{{!")); [discriminate|reflexivity|reflexivity]. }
  destruct (N.eq_dec c 45%N) as [->|Hc].
  - apply (next_capped MBlock (lit "{{!") [45%N] rest); [discriminate|reflexivity|].
    destruct rest as [|d rest]; [reflexivity|]. assert (Hd : (45 =? d)%N = false) by (apply N.eqb_neq; intros <-; now apply (H rest)).
    unfold capped. follow. rewrite !Hd. reflexivity.
  - apply N.eqb_neq in Hc. rewrite N.eqb_sym in Hc. open_tac (lit "{{!").
Qed.
Lemma next_escaped rest : ~ begins_with 123%N rest -> next_token MBlock (lit "\{{" ++ rest) (TBlock BStartRawStatement) 3.
Proof.
  intros H. apply (next_concrete MBlock (lit "\{{")); [discriminate|reflexivity|]. destruct rest as [|d rest]; [reflexivity|].
  assert (Hd : (123 =? d)%N = false) by (apply N.eqb_neq; intros <-; apply H; now exists rest). follow. rewrite !Hd. reflexivity.
Qed.
Lemma next_link (esc : bool) rest :
  next_token MBlock (((if esc then [92%N] else []) ++ lit "[[") ++ rest) (TBlock BStartLink) (length ((if esc then [92%N] else []) ++ lit "[[")).
Proof. apply next_concrete; destruct esc; try discriminate; try reflexivity; destruct rest; reflexivity. Qed.

(** ** Runs of characters *)
Fixpoint ctoks (kt kn : tkind) (p : nat) (s : str) : list token :=
  match s with [] => [] | c :: s => Tok (if N.eqb c 10 then kn else kt) p (p + clen c) :: ctoks kt kn (p + clen c) s end.
Lemma ctoks_lex m kt kn s : forall p rest L, next_mode kt = m -> next_mode kn = m ->
  (forall a c b, s = a ++ c :: b -> next_token m (c :: b ++ rest) (if N.eqb c 10 then kn else kt) 1) ->
  tokenizes m (p + blen s) rest L -> tokenizes m p (s ++ rest) (ctoks kt kn p s ++ L).
Proof.
  induction s as [|c s IH]; intros p rest L H1 H2 H HL.
  - replace p with (p + blen (@nil chr)) by (cbn; lia). exact HL.
  - cbn [ctoks app]. eapply (tkz m p [c]); [reflexivity|apply (H [] c s); reflexivity|cbn; lia|].
    replace (next_mode (if N.eqb c 10 then kn else kt)) with m by (destruct (N.eqb c 10); congruence).
    apply IH; [assumption|assumption| |].
    + intros a c' b ->. apply (H (c :: a) c' b). reflexivity.
    + replace (p + clen c + blen s) with (p + blen (c :: s)) by (cbn; lia). exact HL.
Qed.
Lemma until_ctoks stop kt kn s : stop kt = false -> stop kn = false -> forall sp p L line byte, snd sp = p ->
  exists line' byte', until stop sp (ctoks kt kn p s ++ L) line byte = until stop (fst sp, p + blen s) L line' byte'.
Proof.
  intros Ht Hn. induction s as [|c s IH]; intros [a b] p L line byte Hp; cbn [fst snd] in *.
  - subst. exists line, byte. cbn. now rewrite Nat.add_0_r.
  - cbn [ctoks app until t_kind t_end]. replace (stop (if N.eqb c 10 then kn else kt)) with false by (destruct (N.eqb c 10); congruence).
    edestruct (IH (a, p + clen c)) as (l' & b' & E); [reflexivity|]. exists l', b'. cbn [fst] in *. replace (p + blen (c :: s)) with (p + clen c + blen s) by (cbn; lia). exact E.
Qed.
Definition stops (stop : tkind -> bool) (L : list token) : Prop := match L with [] => True | t :: _ => stop (t_kind t) = true end.
Lemma until_stops stop sp L line byte : stops stop L ->
  exists line', until stop sp L line byte = (sp, hd_error L, mkPst (tl L) line' byte).
Proof. destruct L as [|t L]; cbn; intros H; [now exists line|]. rewrite H. eexists; reflexivity. Qed.
Lemma ctoks_len kt kn s : forall p, length (ctoks kt kn p s) = length s.
Proof. induction s as [|c s IH]; intro p; [reflexivity|]. cbn. now rewrite IH. Qed.

(** *** Text of documents *)
Definition noopen (s : str) : Prop := forall u t, In u [lit "{{"; lit "[["; lit "\{{"; lit "\[["] -> s <> u ++ t.
Lemma noopen_in u s : noopen s -> In u [lit "{{"; lit "[["; lit "\{{"; lit "\[["] -> forall t, s <> u ++ t.
Proof. intros H Hu t. now apply H. Qed.
Lemma next_text c s : noopen (c :: s) -> next_token MBlock (c :: s) (if N.eqb c 10 then TBlock BNewline else TBlock BText) 1.
Proof.
  intros H.
  assert (H1 := noopen_in (lit "{{") _ H ltac:(cbn; tauto)). assert (H2 := noopen_in (lit "[[") _ H ltac:(cbn; tauto)).
  assert (H3 := noopen_in (lit "\{{") _ H ltac:(cbn; tauto)). assert (H4 := noopen_in (lit "\[[") _ H ltac:(cbn; tauto)).
  clear H.
  destruct (N.eq_dec c 123) as [->|C1].
  { apply (next_concrete MBlock [123%N]); [discriminate|reflexivity|]. destruct s as [|d s]; [reflexivity|].
    assert (Hd : (123 =? d)%N = false) by (apply N.eqb_neq; intros <-; now apply (H1 s)). follow. rewrite !Hd. reflexivity. }
  destruct (N.eq_dec c 91) as [->|C2].
  { apply (next_concrete MBlock [91%N]); [discriminate|reflexivity|]. destruct s as [|d s]; [reflexivity|].
    assert (Hd : (91 =? d)%N = false) by (apply N.eqb_neq; intros <-; now apply (H2 s)). follow. rewrite !Hd. reflexivity. }
  destruct (N.eq_dec c 92) as [->|C3].
  { destruct s as [|d s]; [apply (next_concrete MBlock [92%N]); [discriminate|reflexivity|reflexivity]|].
    destruct (N.eq_dec d 123) as [->|D1].
    { apply (next_capped MBlock [92%N] [123%N] s); [discriminate|reflexivity|]. destruct s as [|e s]; [reflexivity|].
      assert (He : (123 =? e)%N = false) by (apply N.eqb_neq; intros <-; now apply (H3 s)). unfold capped; follow. rewrite !He. reflexivity. }
    destruct (N.eq_dec d 91) as [->|D2].
    { apply (next_capped MBlock [92%N] [91%N] s); [discriminate|reflexivity|]. destruct s as [|e s]; [reflexivity|].
      assert (He : (91 =? e)%N = false) by (apply N.eqb_neq; intros <-; now apply (H4 s)). unfold capped; follow. rewrite !He. reflexivity. }
    apply not_eq_sym, N.eqb_neq in D1, D2.
    apply (next_concrete MBlock [92%N]); [discriminate|reflexivity|]. follow. rewrite !D1, !D2. reflexivity. }
  apply not_eq_sym, N.eqb_neq in C1, C2, C3.
  assert (Hf : forall r k, In (r, k) (firstn 9 pats_block) -> re_first r c = false).
  { intros r k Hin. cbn [firstn pats_block In] in Hin.
    repeat (destruct Hin as [[= <- <-]|Hin]; [follow; rewrite ?C1, ?C2, ?C3; reflexivity|]). contradiction. }
  assert (Hno : forall r' k' n', In (r', k') (tag TBlock (firstn 9 pats_block)) -> ~ pat_match r' (c :: s) n').
  { intros r' k' n' Hin. apply in_tag in Hin. destruct Hin as (k & -> & Hin). apply first_bound. eapply Hf; eassumption. }
  assert (H1c : forall f n, pat_match (RChr f) (c :: s) n -> n = 1 /\ f c = true).
  { intros f n [Hn Hl]. destruct n as [|n]; [lia|]. cbn in Hl. apply lang_chr_iff in Hl. destruct Hl as (x & E & Hx). injection E as -> E.
    destruct n; [auto|]. destruct s; [cbn in Hn; lia|discriminate]. }
  destruct (N.eqb c 10) eqn:E.
  - apply (next_intro MBlock (tag TBlock (firstn 10 pats_block)) nl (TBlock BNewline) [] [c] s); [reflexivity|discriminate| | |].
    + apply lang_chr_iff. exists c. split; [reflexivity|]. now rewrite N.eqb_sym.
    + intros r' k' n' Hin Hm. change (firstn 10 pats_block) with (firstn 9 pats_block ++ [(dot, BText)]) in Hin.
      unfold tag in Hin. rewrite map_app in Hin. apply in_app_or in Hin. destruct Hin as [Hin|[[= <- <-]|[]]]; [exfalso; eapply Hno; eassumption|].
      apply H1c in Hm. rewrite E in Hm. now destruct Hm.
    + intros r' k' n' [[= <- <-]|[]] Hm. apply H1c in Hm. cbn. lia.
  - apply (next_intro MBlock (tag TBlock (firstn 9 pats_block)) dot (TBlock BText) [(nl, TBlock BNewline)] [c] s); [reflexivity|discriminate| | |].
    + apply lang_chr_iff. exists c. split; [reflexivity|]. now rewrite E.
    + intros r' k' n' Hin Hm. exfalso. eapply Hno; eassumption.
    + intros r' k' n' [[= <- <-]|[[= <- <-]|[]]] Hm; apply H1c in Hm; cbn; lia.
Qed.

Lemma plain_noopen s rest a c b : plain s -> rest = [] \/ ~ ends_in [123; 91; 92]%N s -> s = a ++ c :: b -> noopen (c :: b ++ rest).
Proof.
  intros (_ & Ho & Hl) He Hs u t Hu E.
  assert (Hend : b = [] -> In c [123; 91; 92]%N -> rest <> [] -> False).
  { intros -> Hc Hr. destruct He as [He|He]; [congruence|]. apply He. exists a, c. auto. }
  assert (Hend2 : forall d, b = [d] -> In d [123; 91; 92]%N -> rest <> [] -> False).
  { intros d -> Hd Hr. destruct He as [He|He]; [congruence|]. apply He. exists (a ++ [c]), d. split; [now rewrite <- app_assoc|assumption]. }
  cbn in Hu. destruct Hu as [<-|[<-|[<-|[<-|[]]]]]; cbn in E; injection E as -> E.
  - destruct b as [|d b]; [eapply Hend; [reflexivity|cbn; tauto|]; cbn in E; subst; discriminate|]. cbn in E. injection E as -> E.
    apply Ho. exists a, b. exact Hs.
  - destruct b as [|d b]; [eapply Hend; [reflexivity|cbn; tauto|]; cbn in E; subst; discriminate|]. cbn in E. injection E as -> E.
    apply Hl. exists a, b. exact Hs.
  - destruct b as [|d b]; [eapply Hend; [reflexivity|cbn; tauto|]; cbn in E; subst; discriminate|]. cbn in E. injection E as -> E.
    destruct b as [|d b]; [eapply Hend2; [reflexivity|cbn; tauto|]; cbn in E; subst; discriminate|]. cbn in E. injection E as -> E.
    apply Ho. exists (a ++ [92%N]), b. rewrite <- app_assoc. exact Hs.
  - destruct b as [|d b]; [eapply Hend; [reflexivity|cbn; tauto|]; cbn in E; subst; discriminate|]. cbn in E. injection E as -> E.
    destruct b as [|d b]; [eapply Hend2; [reflexivity|cbn; tauto|]; cbn in E; subst; discriminate|]. cbn in E. injection E as -> E.
    apply Hl. exists (a ++ [92%N]), b. rewrite <- app_assoc. exact Hs.
Qed.
Notation ttoks := (ctoks (TBlock BText) (TBlock BNewline)).
Lemma text_lex s p rest L : plain s -> rest = [] \/ ~ ends_in [123; 91; 92]%N s ->
  tokenizes MBlock (p + blen s) rest L -> tokenizes MBlock p (s ++ rest) (ttoks p s ++ L).
Proof.
  intros Hp He HL. apply ctoks_lex; [reflexivity|reflexivity| |exact HL].
  intros a c b Hs. apply next_text. eapply plain_noopen; eassumption.
Qed.

(** *** Bodies of comments and escaped statements *)
Definition plain_mode (m : mode) (f : tplain -> tkind) (E : re) : Prop :=
  (m = MRawComment /\ f = TRawComment /\ E = ch "--}}")
  \/ (m = MRawStatement /\ f = TRawStatement /\ E = RCat (ROpt (ch "~")) (RCat (ROpt (ch "}")) (ch "}}")))
  \/ (m = MComment /\ f = TComment /\ E = ch "}}").
Lemma next_plain m f E c s : plain_mode m f E -> (forall n, ~ pat_match E (c :: s) n) ->
  next_token m (c :: s) (if N.eqb c 10 then f PNewline else f PText) 1.
Proof.
  intros Hm HE.
  assert (H1c : forall f n, pat_match (RChr f) (c :: s) n -> n = 1 /\ f c = true).
  { intros g n [Hn Hl]. destruct n as [|n]; [lia|]. cbn in Hl. apply lang_chr_iff in Hl. destruct Hl as (x & Ex & Hx). injection Ex as -> Ex.
    destruct n; [auto|]. destruct s; [cbn in Hn; lia|discriminate]. }
  assert (Hp : pats m = [(dot, f PText); (E, f PEnd); (nl, f PNewline)]) by (destruct Hm as [(-> & -> & ->)|[(-> & -> & ->)|(-> & -> & ->)]]; reflexivity).
  destruct (N.eqb c 10) eqn:Ec.
  - apply (next_intro m [(dot, f PText); (E, f PEnd)] nl (f PNewline) [] [c] s); [exact Hp|discriminate| | |].
    + apply lang_chr_iff. exists c. split; [reflexivity|]. now rewrite N.eqb_sym.
    + intros r' k' n' [[= <- <-]|[[= <- <-]|[]]] Hq; [apply H1c in Hq; rewrite Ec in Hq; now destruct Hq|now apply HE in Hq].
    + intros r' k' n' [[= <- <-]|[]] Hq. apply H1c in Hq. cbn. lia.
  - apply (next_intro m [] dot (f PText) [(E, f PEnd); (nl, f PNewline)] [c] s); [exact Hp|discriminate| | |].
    + apply lang_chr_iff. exists c. split; [reflexivity|]. now rewrite Ec.
    + intros r' k' n' [].
    + intros r' k' n' [[= <- <-]|[[= <- <-]|[[= <- <-]|[]]]] Hq; [|now apply HE in Hq|]; apply H1c in Hq; cbn; lia.
Qed.
Lemma plain_lex m f E s p rest L : plain_mode m f E -> (forall a c b n, s = a ++ c :: b -> ~ pat_match E (c :: b ++ rest) n) ->
  tokenizes m (p + blen s) rest L -> tokenizes m p (s ++ rest) (ctoks (f PText) (f PNewline) p s ++ L).
Proof.
  intros Hm HE HL. apply ctoks_lex; [| | |exact HL].
  1,2: destruct Hm as [(-> & -> & ->)|[(-> & -> & ->)|(-> & -> & ->)]]; reflexivity.
  intros a c b Hs. eapply next_plain; [exact Hm|]. intro n. eapply HE; exact Hs.
Qed.
Lemma comment_clear s rest a c b n : ~ occurs (lit "}}") s -> ~ ends_in [125]%N s -> s = a ++ c :: b ->
  ~ pat_match (ch "}}") (c :: b ++ lit "}}" ++ rest) n.
Proof.
  intros Ho He Hs Hm. apply lit_bound in Hm. destruct Hm as [-> Hf]. cbn in Hf. injection Hf as -> Hf.
  destruct b as [|d b]; [apply He; exists a, 125%N; split; [exact Hs|cbn; tauto]|]. cbn in Hf. injection Hf as ->.
  apply Ho. exists a, b. exact Hs.
Qed.
Lemma raw_comment_clear s rest a c b n : ~ occurs (lit "--}}") s -> s = a ++ c :: b ->
  ~ pat_match (ch "--}}") (c :: b ++ lit "--}}" ++ rest) n.
Proof.
  intros Ho Hs Hm. apply lit_bound in Hm. destruct Hm as [-> Hf]. cbn in Hf. injection Hf as -> Hf.
  destruct b as [|d b]; [cbn in Hf; discriminate|]. cbn in Hf. injection Hf as -> Hf.
  destruct b as [|d b]; [cbn in Hf; discriminate|]. cbn in Hf. injection Hf as -> Hf.
  destruct b as [|d b]; [cbn in Hf; discriminate|]. cbn in Hf. injection Hf as ->.
  apply Ho. exists a, b. exact Hs.
Qed.
Lemma raw_end_lang w : lang (RCat (ROpt (ch "~")) (RCat (ROpt (ch "}")) (ch "}}"))) w ->
  exists v, w = lit "}}" ++ v \/ w = lit "~}}" ++ v.
Proof.
  intros H. apply lang_cat_iff in H. destruct H as (x & y & -> & Hx & Hy). apply lang_cat_iff in Hy. destruct Hy as (y1 & y2 & -> & Hy1 & Hy2).
  apply lang_lit in Hy2. subst y2. apply lang_opt_iff in Hx, Hy1.
  destruct Hy1 as [->|Hy1]; [|apply lang_lit in Hy1; subst y1]; (destruct Hx as [->|Hx]; [|apply lang_lit in Hx; subst x]).
  - exists []. now left.
  - exists []. now right.
  - exists (lit "}"). now left.
  - exists (lit "}"). now right.
Qed.
Lemma escaped_clear s rest a c b n : ~ occurs (lit "}}") s -> ~ ends_in [125; 126]%N s -> s = a ++ c :: b ->
  ~ pat_match (RCat (ROpt (ch "~")) (RCat (ROpt (ch "}")) (ch "}}"))) (c :: b ++ lit "}}" ++ rest) n.
Proof.
  intros Ho He Hs [_ Hm]. apply raw_end_lang in Hm. destruct Hm as (v & Hm).
  assert (Hx : exists t, c :: b ++ lit "}}" ++ rest = lit "}}" ++ t \/ c :: b ++ lit "}}" ++ rest = lit "~}}" ++ t).
  { set (x := c :: b ++ lit "}}" ++ rest) in *. exists (v ++ skipn n x). pose proof (firstn_skipn n x) as Hx.
    destruct Hm as [Hm|Hm]; [left|right]; rewrite <- Hx at 1; unfold chr in *; rewrite Hm, <- app_assoc; reflexivity. }
  clear Hm. destruct Hx as (t & [E|E]); cbn in E; injection E as -> E.
  - destruct b as [|d b]; [apply He; exists a, 125%N; split; [exact Hs|cbn; tauto]|]. cbn in E. injection E as -> E. apply Ho. exists a, b. exact Hs.
  - destruct b as [|d b]; [apply He; exists a, 126%N; split; [exact Hs|cbn; tauto]|]. cbn in E. injection E as -> E.
    destruct b as [|d b]; [apply He; exists (a ++ [126%N]), 125%N; split; [rewrite <- app_assoc; exact Hs|cbn; tauto]|]. cbn in E. injection E as -> E.
    apply Ho. exists (a ++ [126%N]), b. rewrite <- app_assoc. exact Hs.
Qed.
Lemma next_comment_end rest : next_token MComment (lit "}}" ++ rest) (TComment PEnd) 2.
Proof. apply (next_concrete MComment (lit "}}")); [discriminate|reflexivity|]. destruct rest; reflexivity. Qed.
Lemma next_raw_comment_end rest : next_token MRawComment (lit "--}}" ++ rest) (TRawComment PEnd) 4.
Proof. apply (next_concrete MRawComment (lit "--}}")); [discriminate|reflexivity|]. destruct rest; reflexivity. Qed.
Lemma next_escaped_end rest : nobrace rest -> next_token MRawStatement (lit "}}" ++ rest) (TRawStatement PEnd) 2.
Proof.
  intros H. apply (next_concrete MRawStatement (lit "}}")); [discriminate|reflexivity|]. destruct rest as [|d rest]; [reflexivity|].
  apply nobrace_cons in H. rewrite N.eqb_sym in H. follow. rewrite !H. reflexivity.
Qed.

(** ** Tags *)
Lemma opens_mode l mark k : In (l, mark, k) opens -> next_mode (TBlock k) = MParam.
Proof.
  cbn [In opens]. intros Hin. destruct Hin as [[= <- <- <-]|[[= <- <- <-]|[[= <- <- <-]|[[= <- <- <-]|[[= <- <- <-]|[[= <- <- <-]|[]]]]]]]; reflexivity.
Qed.
(** an opening splits into the token of its delimiter and white space *)
Lemma opening_split ly l m mark k s : In (l, mark, k) opens -> opening ly l m mark s ->
  exists o g, s = o ++ g /\ gap_str g /\ (exists b, o = open_tag l m ++ b /\ forall c, In c b -> In c (mark ++ [32; 9]%N))
    /\ forall rest, (exists c r, rest = c :: r /\ opench c) -> next_token MBlock (o ++ g ++ rest) (TBlock k) (length o).
Proof.
  intros Hin (g1 & g2 & -> & H1 & H2). apply blank_gap_str in H1. apply around_gap in H2.
  destruct (blank_split g2 H2) as (b & r & -> & Hb & Hr & Hc).
  assert (Hopen : forall rest, (exists c x, rest = c :: x /\ opench c) -> exists c x, r ++ rest = c :: x /\ opench c).
  { intros rest Hrest. destruct r as [|d r]; [exact Hrest|]. subst d. exists 10%N, (r ++ rest). split; [reflexivity|]. unfold opench. cbn. intuition discriminate. }
  cbn [In opens] in Hin.
  assert (Hcase : (mark = [] /\ In (l, [], k) opens) \/ (mark = [35%N] /\ In (l, [35%N], k) opens) \/ (mark = [47%N] /\ In (l, [47%N], k) opens)).
  { cbn [In opens]. destruct Hin as [[= <- <- <-]|[[= <- <- <-]|[[= <- <- <-]|[[= <- <- <-]|[[= <- <- <-]|[[= <- <- <-]|[]]]]]]]; tauto. }
  clear Hin. destruct Hcase as [[-> Hin]|[[-> Hin]|[-> Hin]]].
  - exists (open_tag l m ++ g1 ++ b), r. split; [cbn [app]; now rewrite <- !app_assoc|]. split; [exact Hr|]. split.
    + exists (g1 ++ b). split; [reflexivity|]. intros c Hx. apply in_app_or in Hx. cbn [app]. destruct Hx as [Hx|Hx]; [now apply H1|now apply Hb].
    + intros rest Hrest. specialize (Hopen rest Hrest).
      pose proof (next_open l [] k m (g1 ++ b) [] (r ++ rest) Hin) as X. cbn [app] in X. rewrite !app_nil_r in X. apply X; [|intros ? []|reflexivity|right; exact Hopen].
      intros c Hx. apply in_app_or in Hx. destruct Hx as [Hx|Hx]; [now apply H1|now apply Hb].
  - exists (open_tag l m ++ g1 ++ [35%N] ++ b), r. split; [now rewrite <- !app_assoc|]. split; [exact Hr|]. split.
    + exists (g1 ++ [35%N] ++ b). split; [reflexivity|]. intros c Hx. apply in_app_or in Hx. destruct Hx as [Hx|[<-|Hx]]; [right; now apply H1|now left|right; now apply Hb].
    + intros rest Hrest. specialize (Hopen rest Hrest). apply next_open; try assumption; [congruence|now right].
  - exists (open_tag l m ++ g1 ++ [47%N] ++ []), (b ++ r). split; [now rewrite app_nil_r, <- !app_assoc|]. split; [exact H2|]. split.
    + exists (g1 ++ [47%N] ++ []). split; [reflexivity|]. intros c Hx. apply in_app_or in Hx. destruct Hx as [Hx|[<-|[]]]; [right; now apply H1|now left].
    + intros rest Hrest. apply next_open; try assumption; [intros ? []|reflexivity|now left].
Qed.
Lemma pre_open f pt cd u w : pre_ok f pt cd -> first_ok u -> exists c r, (f ++ u ++ w) = c :: r /\ opench c.
Proof.
  intros Hp Hu. destruct Hp as [(-> & _)|[(g & -> & _)|(g & -> & _)]].
  - cbn [app]. apply first_opench, first_app, Hu.
  - eexists _, _. split; [reflexivity|]. unfold opench. cbn. intuition discriminate.
  - eexists _, _. split; [reflexivity|]. unfold opench. cbn. intuition discriminate.
Qed.
(** the token of the opening delimiter [l] with its [~], mark and blanks *)
Definition opener (l : string) (m : tildes) (mark o : str) : Prop := exists b, o = open_tag l m ++ b /\ forall c, In c b -> In c (mark ++ [32; 9]%N).
(** a tag: [a] the opening, [f] the prefix, [u] the call, [z] the ending *)
Lemma open_body ly pe l mark k m a f pt cd R u gz ta cl : In (l, mark, k) opens -> opening ly l m mark a -> pre_ok f pt cd ->
  body_good pe u R -> gap_str gz -> In cl closers ->
  let T := a ++ f ++ u ++ gz ++ tilde ta ++ cl in
  forall p, exists o ts, opener l m mark o
    /\ (exists rest, a = o ++ rest)
    /\ (forall rest L, nobrace rest -> tokenizes MBlock (p + blen T) rest L -> tokenizes MBlock p (T ++ rest) (Tok (TBlock k) p (p + blen o) :: ts ++ L))
    /\ 1 <= length ts
    /\ forall cx L line byte, px_env cx = pe -> at_ (px_src cx) p T ->
         exists c line' byte', call_parse cx (p, p + blen o) (mkPst (ts ++ L) line byte) = POk c (mkPst L line' byte')
           /\ tag_holds cx pt cd (p, p + blen o) (p + blen (a ++ f ++ u ++ gz), p + blen T) R c.
Proof.
  intros Hin Ha Hp Hw Hgz Hc T p. destruct (opening_split _ _ _ _ _ _ Hin Ha) as (o & g & -> & Hg & Ho & Hnext).
  destruct (tag_body pe g f pt cd R u gz ta cl Hg Hp Hw Hgz Hc (p + blen o)) as (ts & Hlex & Hlen & Hparse).
  exists o, ts. split; [exact Ho|]. split; [now exists g|]. subst T. split; [|split; [exact Hlen|]].
  - intros rest L Hr HL. rewrite <- !app_assoc. rewrite <- app_assoc in HL.
    eapply (tkz _ _ o); [reflexivity| |reflexivity|].
    + apply Hnext. apply (pre_open f pt cd u _ Hp). apply Hw.
    + rewrite (opens_mode _ _ _ Hin). specialize (Hlex rest L Hr). rewrite <- !app_assoc in Hlex. apply Hlex. rewrite blen_app, Nat.add_assoc in HL. exact HL.
  - intros cx L line byte He Hat. rewrite <- app_assoc in Hat. apply at_r in Hat.
    destruct (Hparse cx (p, p + blen o) L line byte He Hat) as (c & ln & b & E & Hres).
    exists c, ln, b. split; [exact E|]. rewrite <- !Nat.add_assoc, <- !blen_app in Hres. rewrite <- !app_assoc. exact Hres.
Qed.
Lemma open_good ly pe l mark k m a f pt cd x u gz ta cl : In (l, mark, k) opens -> opening ly l m mark a -> pre_ok f pt cd ->
  call_writes ly x u -> callx_ok pe x -> gap_str gz -> In cl closers ->
  let T := a ++ f ++ u ++ gz ++ tilde ta ++ cl in
  forall p, exists o ts, opener l m mark o
    /\ (exists rest, a = o ++ rest)
    /\ (forall rest L, nobrace rest -> tokenizes MBlock (p + blen T) rest L -> tokenizes MBlock p (T ++ rest) (Tok (TBlock k) p (p + blen o) :: ts ++ L))
    /\ 1 <= length ts
    /\ forall cx L line byte, px_env cx = pe -> at_ (px_src cx) p T ->
         exists c line' byte', call_parse cx (p, p + blen o) (mkPst (ts ++ L) line byte) = POk c (mkPst L line' byte')
           /\ tag_result ly pe cx pt cd x (p, p + blen o) (p + blen (a ++ f ++ u ++ gz), p + blen T) c.
Proof.
  intros Hin Ha Hp Hw Hx Hgz Hc T p.
  destruct (open_body ly pe l mark k m a f pt cd _ u gz ta cl Hin Ha Hp (call_body_good ly pe x u Hw Hx) Hgz Hc p) as (o & ts & H1 & H2 & H3 & H4 & H5).
  exists o, ts. split; [exact H1|]. split; [exact H2|]. split; [exact H3|]. split; [exact H4|].
  intros cx L line byte He Hat. destruct (H5 cx L line byte He Hat) as (c & l' & b' & E & (tg & vs & ps & ln & -> & R1 & R2)).
  eexists _, l', b'. split; [exact E|]. split; [apply R1|]. repeat (split; [reflexivity|]). exact R2.
Qed.
Lemma else_open_good ly m a gz ta : opening ly "{{" m [] a -> gap_str gz ->
  let T := a ++ lit "else" ++ gz ++ tilde ta ++ lit "}}" in
  forall p, exists o ts, opener "{{" m [] o
    /\ (exists rest, a = o ++ rest)
    /\ (forall rest L, nobrace rest -> tokenizes MBlock (p + blen T) rest L -> tokenizes MBlock p (T ++ rest) (Tok (TBlock BStartStatement) p (p + blen o) :: ts ++ L))
    /\ 1 <= length ts
    /\ forall cx L line byte,
         exists c line' byte', call_parse cx (p, p + blen o) (mkPst (ts ++ L) line byte) = POk c (mkPst L line' byte')
           /\ call_is_empty c = true /\ c_open c = (p, p + blen o) /\ c_partial c = false /\ c_conditional c = true
           /\ c_close c = Some (p + blen (a ++ lit "else" ++ gz), p + blen T).
Proof.
  intros Ha Hgz T p. assert (Hin : In ("{{"%string, [], BStartStatement) opens) by (cbn; tauto).
  destruct (opening_split _ _ _ _ _ _ Hin Ha) as (o & g & -> & Hg & Ho & Hnext).
  destruct (else_good g gz ta Hg Hgz (p + blen o)) as (ts & Hlex & Hlen & Hparse).
  exists o, ts. split; [exact Ho|]. split; [now exists g|]. subst T. split; [|split; [exact Hlen|]].
  - intros rest L Hr HL. rewrite <- !app_assoc. rewrite <- app_assoc in HL.
    eapply (tkz _ _ o); [reflexivity| |reflexivity|].
    + apply Hnext. eexists _, _. split; [reflexivity|]. unfold opench. cbn. intuition discriminate.
    + rewrite (opens_mode _ _ _ Hin). specialize (Hlex rest L Hr). rewrite <- !app_assoc in Hlex. apply Hlex. rewrite blen_app, Nat.add_assoc in HL. exact HL.
  - intros cx L line byte. destruct (Hparse cx (p, p + blen o) L line byte) as (c & ln & b & E & H1 & H2 & H3 & H4 & H5).
    exists c, ln, b. repeat split; try assumption. rewrite H5. rewrite <- !Nat.add_assoc, <- !blen_app, <- !app_assoc. reflexivity.
Qed.
(** what the parser says about the two ends of a tag *)
Lemma tag_ends src c o mid e p : at_ src p (o ++ mid ++ e) -> c_open c = (p, p + blen o) ->
  c_close c = Some (p + blen (o ++ mid), p + blen (o ++ mid ++ e)) ->
  call_open_str src c = Some o /\ call_close_str src c = Some e /\ call_str src c = Some (o ++ mid ++ e)
  /\ call_span c = (p, p + blen (o ++ mid ++ e)).
Proof.
  intros Hat Ho Hc. unfold call_open_str, call_close_str, call_str, call_span. rewrite Ho, Hc. cbn [fst snd]. repeat split.
  - apply (at_sl src p o); [now apply at_l in Hat|reflexivity].
  - rewrite app_assoc in Hat. apply at_r in Hat. apply (at_sl src _ e); [exact Hat|]. rewrite !blen_app. lia.
  - now apply at_slice.
Qed.
