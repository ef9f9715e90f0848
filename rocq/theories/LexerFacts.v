(** * LexerFacts: proofs about the lexer model. *)
From Coq Require Import Lia String.
From Verif Require Import Str Regex Lexer Spec_Lexer StrFacts RegexFacts.
Open Scope nat_scope. Open Scope list_scope.

Lemma lex1_next m s : s <> [] -> next_token m s (fst (lex1 m s)) (snd (lex1 m s)).
Proof.
  intros Hs. unfold lex1. pose proof (munch_spec (pats m) s) as H.
  destruct (munch (pats m) s) as [[k n]|]; simpl.
  - left. destruct H as (l1 & r & l2 & E & H1 & H2 & H3). exists l1, r, l2. repeat split; assumption || apply H1.
  - right. split; [|split; [reflexivity|split; [reflexivity|exact Hs]]]. intros r k n. apply H.
Qed.

Lemma next_token_len m s k n : next_token m s k n -> 1 <= n <= length s.
Proof.
  intros [(l1 & r & l2 & _ & [H _] & _)|(_ & _ & -> & Hs)]; [exact H|].
  destruct s; [congruence | simpl; lia].
Qed.

(** the rule is functional *)
Lemma next_token_det m s k n k' n' : next_token m s k n -> next_token m s k' n' -> k = k' /\ n = n'.
Proof.
  intros [(l1 & r & l2 & E & H1 & H2 & H3)|(H1 & -> & -> & Hs)]
         [(l1' & r' & l2' & E' & H1' & H2' & H3')|(H1' & -> & -> & Hs')].
  - assert (In (r, k) (pats m)) by (rewrite E; apply in_elt).
    assert (In (r', k') (pats m)) by (rewrite E'; apply in_elt).
    assert (n = n').
    { apply Nat.le_antisymm; [apply (H2' r k n); assumption | apply (H2 r' k' n'); assumption]. }
    subst n'. split; [|reflexivity].
    rewrite E in E'. apply app_eq_app in E'. destruct E' as [z [[-> Ez]|[-> Ez]]].
    + destruct z as [|p z]; simpl in Ez; injection Ez as Ep Ez; [congruence|].
      exfalso. apply (H3 r' k'); [|assumption]. apply in_or_app. right. left. congruence.
    + destruct z as [|p z]; simpl in Ez; injection Ez as Ep Ez; [congruence|].
      exfalso. apply (H3' r k); [|assumption]. apply in_or_app. right. left. congruence.
  - exfalso. eapply H1'; [|exact H1]. rewrite E. apply in_elt.
  - exfalso. eapply H1; [|exact H1']. rewrite E'. apply in_elt.
  - split; reflexivity.
Qed.

Lemma lex_go_cons fuel m p c s :
  lex_go (S fuel) m p (c :: s) =
    (let (k, n) := lex1 m (c :: s) in
     let e := p + blen (firstn n (c :: s)) in
     match lex_go fuel (next_mode k) e (skipn n (c :: s)) with
     | Some l => Some (Tok k p e :: l)
     | None => None
     end).
Proof. reflexivity. Qed.

Lemma lex_go_tokenizes fuel : forall m p s, length s <= fuel ->
  exists l, lex_go fuel m p s = Some l /\ tokenizes m p s l.
Proof.
  induction fuel as [|fuel IH]; intros m p s Hs.
  - destruct s; [|simpl in Hs; lia]. exists []. split; [reflexivity | constructor].
  - destruct s as [|c s]; [exists []; split; [reflexivity | constructor]|].
    rewrite lex_go_cons. pose proof (lex1_next m (c :: s) ltac:(congruence)) as Hn.
    destruct (lex1 m (c :: s)) as [k n]; simpl fst in Hn; simpl snd in Hn.
    pose proof (next_token_len _ _ _ _ Hn) as Hlen.
    set (t := c :: s) in *.
    assert (Hsk : length (skipn n t) <= fuel) by (rewrite skipn_length; lia).
    destruct (IH (next_mode k) (p + blen (firstn n t)) (skipn n t) Hsk) as (l & El & Hl).
    exists (Tok k p (p + blen (firstn n t)) :: l). cbv zeta. rewrite El. split; [reflexivity|].
    rewrite <- (firstn_skipn n t) at 1. constructor; [|exact Hl].
    rewrite firstn_skipn, firstn_length_le by lia. exact Hn.
Qed.

Lemma lex_go_total fuel m p s : length s <= fuel -> lex_go fuel m p s <> None.
Proof. intros H. destruct (lex_go_tokenizes fuel m p s H) as (l & -> & _). discriminate. Qed.

Lemma lex_from_total m s : exists l, lex_from m s = Some l /\ tokenizes m 0 s l.
Proof. apply lex_go_tokenizes. lia. Qed.
Lemma lex_total s : exists l, lex s = Some l /\ tokenizes MBlock 0 s l.
Proof. apply lex_from_total. Qed.
Lemma lex_tokenizes s l : lex s = Some l -> tokenizes MBlock 0 s l.
Proof. intros H. destruct (lex_total s) as (l' & E & Ht). rewrite H in E. injection E as ->. exact Ht. Qed.
Lemma lex_from_tokenizes m s l : lex_from m s = Some l -> tokenizes m 0 s l.
Proof. intros H. destruct (lex_from_total m s) as (l' & E & Ht). rewrite H in E. injection E as ->. exact Ht. Qed.

Lemma tokenizes_det m p s l l' : tokenizes m p s l -> tokenizes m p s l' -> l = l'.
Proof.
  intros H. revert l'. induction H as [m p|m p w rest k l Hn Ht IH]; intros l' H'.
  - inversion H' as [|? ? w' rest' k' l2 Hn' Ht' E1 E2 E3]; subst; [reflexivity|].
    apply next_token_len in Hn'. rewrite E3 in Hn'. simpl in Hn'. lia.
  - inversion H' as [|? ? w' rest' k' l2 Hn' Ht' E1 E2 E3]; subst.
    + apply next_token_len in Hn. match goal with H : [] = _ |- _ => rewrite <- H in Hn end. simpl in Hn. lia.
    + rewrite E3 in Hn'. destruct (next_token_det _ _ _ _ _ _ Hn Hn') as [-> Hlen].
      apply app_eq_app in E3. destruct E3 as [z [[Ew Er]|[Ew Er]]];
        subst; rewrite app_length in Hlen; assert (z = []) by (apply length_zero_iff_nil; lia); subst z;
        rewrite ?app_nil_r in *; simpl in *; subst; f_equal; apply IH; assumption.
Qed.

(** tokens of a stream: everything about one token *)
Lemma tokenizes_tiles m p s l : tokenizes m p s l -> tiles p (p + blen s) l.
Proof.
  induction 1 as [m p|m p w rest k l Hn Ht IH]; simpl.
  - lia.
  - split; [reflexivity|]. rewrite blen_app, Nat.add_assoc. split; [|exact IH].
    apply next_token_len in Hn. destruct w as [|c w]; [simpl in Hn; lia|]. simpl. pose proof (clen_pos c). lia.
Qed.

Lemma tokenizes_texts m p s l pre : tokenizes m p s l -> p = blen pre ->
  exists xs, token_texts (pre ++ s) l = Some xs /\ concat xs = s /\ Forall (fun x => x <> []) xs.
Proof.
  intros H. revert pre. induction H as [m p|m p w rest k l Hn Ht IH]; intros pre Hp; simpl.
  - exists []. repeat split. constructor.
  - subst p. rewrite slice_mid. destruct (IH (pre ++ w)) as (xs & Ex & Ec & Hf).
    { rewrite blen_app. reflexivity. }
    rewrite <- app_assoc in Ex. rewrite Ex. exists (w :: xs). simpl. rewrite Ec. repeat split.
    constructor; [|exact Hf]. apply next_token_len in Hn. intros ->. simpl in Hn. lia.
Qed.

(** a token in the middle of a stream *)
Fixpoint mode_of (m : mode) (l : list token) : mode :=
  match l with [] => m | t :: l' => mode_of (next_mode (t_kind t)) l' end.
Lemma mode_of_app m a b : mode_of m (a ++ b) = mode_of (mode_of m a) b.
Proof. revert m. induction a as [|t a IH]; intros m; simpl; [reflexivity | apply IH]. Qed.

Lemma tokenizes_split m p s l1 l2 : tokenizes m p s (l1 ++ l2) ->
  exists s1 s2, s = s1 ++ s2 /\ tokenizes (mode_of m l1) (p + blen s1) s2 l2 /\ tiles p (p + blen s1) l1.
Proof.
  revert m p s. induction l1 as [|t l1 IH]; intros m p s H.
  - exists [], s. simpl. rewrite Nat.add_0_r. repeat split; assumption.
  - simpl in H. inversion H as [|? ? w rest k l Hn Ht E1 E2 E3]; subst.
    destruct (IH _ _ _ Ht) as (s1 & s2 & -> & Ht2 & Hti).
    exists (w ++ s1), s2. rewrite <- app_assoc, blen_app, Nat.add_assoc. repeat split; simpl; try assumption.
    apply next_token_len in Hn. destruct w as [|c w]; [simpl in Hn; lia|]. simpl. pose proof (clen_pos c). lia.
Qed.

(** ** Error tokens *)
Lemma dot_or_nl m s : In m [MBlock; MRawComment; MRawStatement; MComment] -> s <> [] ->
  exists r k, In (r, k) (pats m) /\ pat_match r s 1.
Proof.
  intros Hm Hs. destruct s as [|c s]; [congruence|].
  assert (Hp : pat_match dot (c :: s) 1 \/ pat_match nl (c :: s) 1).
  { destruct (N.eqb_spec c 10) as [->|Hc]; [right | left]; (split; [simpl; lia|]); simpl; constructor.
    - reflexivity.
    - apply N.eqb_neq in Hc. rewrite Hc. reflexivity. }
  assert (Hin : exists k1 k2, In (dot, k1) (pats m) /\ In (nl, k2) (pats m)).
  { destruct Hm as [<-|[<-|[<-|[<-|[]]]]]; do 2 eexists; simpl; tauto. }
  destruct Hin as (k1 & k2 & H1 & H2). destruct Hp as [Hp|Hp]; eauto.
Qed.

Lemma pats_no_error m r : ~ In (r, err_kind m) (pats m).
Proof.
  destruct m; simpl; intros H;
    repeat match goal with H : _ \/ _ |- _ => destruct H as [H|H]; [congruence|] end; exact H.
Qed.

Lemma next_token_error m s n :
  next_token m s (err_kind m) n -> ~ In m [MBlock; MRawComment; MRawStatement; MComment] /\ n = 1
    /\ forall r' k' n', In (r', k') (pats m) -> ~ pat_match r' s n'.
Proof.
  intros [(l1 & r & l2 & E & _)|(H1 & _ & -> & Hs)].
  - exfalso. apply (pats_no_error m r). rewrite E. apply in_elt.
  - repeat split; try assumption. intros Hm. destruct (dot_or_nl m s Hm Hs) as (r & k & Hin & Hp).
    eapply H1; eassumption.
Qed.

Lemma pats_kind m r k : In (r, k) (pats m) -> kind_mode k = m.
Proof.
  destruct m; unfold pats, tag; intros H; apply in_map_iff in H; destruct H as ([r' x] & E & _); simpl in E;
    injection E as _ <-; reflexivity.
Qed.
Lemma next_token_kind m s k n : next_token m s k n -> kind_mode k = m.
Proof.
  intros [(l1 & r & l2 & E & _)|(_ & -> & _)].
  - apply (pats_kind m r). rewrite E. apply in_elt.
  - destruct m; reflexivity.
Qed.

(** ** C03: streams follow the grammar *)
Definition in_mode (m : mode) (l : list tkind) : Prop :=
  match m with
  | MBlock => stream l
  | MRawComment => plain_body TRawComment stream l
  | MRawStatement => plain_body TRawStatement stream l
  | MComment => plain_body TComment stream l
  | MLink => link_body stream l
  | MParam => params l
  | MDouble => quote_body TDouble params l
  | MSingle => quote_body TSingle params l
  | MArray => quote_body TArray params l
  end.

Lemma tokenizes_grammar m p s l : tokenizes m p s l -> in_mode m (map t_kind l).
Proof.
  induction 1 as [m p|m p w rest k l Hn Ht IH].
  - destruct m; constructor.
  - apply next_token_kind in Hn. subst m. simpl map.
    destruct k as [b|q|q|q|b|q|q|q|q]; simpl in *.
    + destruct b; constructor; try reflexivity; assumption.
    + destruct q; constructor; try discriminate; assumption.
    + destruct q; constructor; try discriminate; assumption.
    + destruct q; constructor; try discriminate; assumption.
    + destruct b; constructor; try reflexivity; assumption.
    + destruct q; constructor; try discriminate; assumption.
    + destruct q; constructor; try discriminate; assumption.
    + destruct q; constructor; try discriminate; assumption.
    + destruct q; constructor; try discriminate; assumption.
Qed.

(** ** C04: normalisation *)
Definition nontext (t : token) : bool := negb (is_text (t_kind t)).

Lemma tiles_le p q l : tiles p q l -> p <= q.
Proof. revert p. induction l as [|t l IH]; simpl; intros p H; [lia|]. destruct H as (<- & H & Ht). apply IH in Ht. lia. Qed.

Lemma normalize_go_tiles l : forall span p q,
  tiles p q l ->
  match span with Some (a, b) => a < b /\ b = p | None => True end ->
  tiles (match span with Some (a, _) => a | None => p end) q (normalize_go span l).
Proof.
  induction l as [|t l IH]; intros span p q H Hs; simpl.
  - simpl in H. subst q. destruct span as [[a b]|]; simpl; [|reflexivity]. destruct Hs as [H ->]. auto.
  - simpl in H. destruct H as (<- & Hlt & Ht). destruct (is_text (t_kind t)).
    + destruct span as [[a b]|].
      * destruct Hs as [Hs ->]. apply (IH (Some (a, t_end t)) (t_end t) q Ht). lia.
      * apply (IH (Some (t_start t, t_end t)) (t_end t) q Ht). lia.
    + pose proof (IH None (t_end t) q Ht I) as Hr. destruct span as [[a b]|]; simpl.
      * destruct Hs as [Hs ->]. auto.
      * auto.
Qed.

Lemma normalize_go_filter l : forall span, filter nontext (normalize_go span l) = filter nontext l.
Proof.
  induction l as [|t l IH]; intros span; simpl.
  - destruct span as [[a b]|]; reflexivity.
  - unfold nontext at 2. destruct (is_text (t_kind t)) eqn:E; simpl.
    + destruct span as [[a b]|]; apply IH.
    + destruct span as [[a b]|]; simpl; unfold nontext at 1; rewrite E; simpl; rewrite IH; reflexivity.
Qed.

Lemma normalize_go_adj l : forall span, no_adjacent_text (normalize_go span l)
  /\ (span = None -> match l with t :: _ => is_text (t_kind t) = false ->
        match normalize_go span l with u :: _ => u = t | [] => False end | [] => True end).
Proof.
  induction l as [|t l IH]; intros span; simpl.
  - destruct span as [[a b]|]; simpl; auto.
  - destruct (is_text (t_kind t)) eqn:E.
    + split; [destruct span as [[a b]|]; apply IH | intros _; discriminate].
    + assert (Hc : no_adjacent_text (t :: normalize_go None l)).
      { simpl. split; [|apply IH]. destruct (normalize_go None l); [exact I|]. rewrite E. intuition congruence. }
      split; [|intros ->; intros _; reflexivity].
      destruct span as [[a b]|]; [|exact Hc].
      split; [|exact Hc]. simpl. rewrite E. intuition congruence.
Qed.

Lemma normalize_go_text l : forall span u, In u (normalize_go span l) -> is_text (t_kind u) = true ->
  t_kind u = TBlock BText.
Proof.
  induction l as [|t l IH]; intros span u Hu Ht; simpl in Hu.
  - destruct span as [[a b]|]; simpl in Hu; [|contradiction]. destruct Hu as [<-|[]]. reflexivity.
  - destruct (is_text (t_kind t)) eqn:E.
    + destruct span as [[a b]|]; eapply IH; eassumption.
    + destruct span as [[a b]|]; simpl in Hu.
      * destruct Hu as [<-|[<-|Hu]]; [reflexivity | congruence | eapply IH; eassumption].
      * destruct Hu as [<-|Hu]; [congruence | eapply IH; eassumption].
Qed.

(** tilings of the same source region read back validly when all boundaries are char boundaries *)
Lemma tiles_texts src l : forall p q, tiles p q l ->
  (forall t, In t l -> bnd src (t_start t) /\ bnd src (t_end t)) -> bnd src p ->
  exists xs, token_texts src l = Some xs /\ slice src p q = Some (concat xs).
Proof.
  induction l as [|t l IH]; intros p q H Hb Hp; simpl.
  - simpl in H. subst q. exists []. split; [reflexivity|]. apply slice_refl, Hp.
  - simpl in H. destruct H as (<- & Hlt & Ht).
    destruct (Hb t (or_introl eq_refl)) as [H1 H2].
    destruct (slice_some src _ _ H1 H2 ltac:(lia)) as (x & Ex).
    destruct (IH _ _ Ht) as (xs & Exs & Es); [intros u Hu; apply Hb; right; exact Hu | exact H2|].
    rewrite Ex, Exs. exists (x :: xs). split; [reflexivity|]. simpl. eapply slice_app; eassumption.
Qed.

Lemma tokenizes_bnd m p s l pre : tokenizes m p s l -> p = blen pre ->
  forall t, In t l -> bnd (pre ++ s) (t_start t) /\ bnd (pre ++ s) (t_end t).
Proof.
  intros H. revert pre. induction H as [m p|m p w rest k l Hn Ht IH]; intros pre Hp t Hin; simpl in Hin; [contradiction|].
  destruct Hin as [<-|Hin].
  - simpl. subst p. split; [apply bnd_app|]. rewrite app_assoc, <- blen_app. apply bnd_app.
  - rewrite app_assoc. apply IH; [rewrite blen_app; lia | exact Hin].
Qed.

Lemma normalize_go_bnd (P : nat -> Prop) l : forall span,
  (forall t, In t l -> P (t_start t) /\ P (t_end t)) ->
  match span with Some (a, b) => P a /\ P b | None => True end ->
  forall t, In t (normalize_go span l) -> P (t_start t) /\ P (t_end t).
Proof.
  induction l as [|u l IH]; intros span Hl Hs t Ht; simpl in Ht.
  - destruct span as [[a b]|]; simpl in Ht; [|contradiction]. destruct Ht as [<-|[]]. exact Hs.
  - assert (Hu := Hl u (or_introl eq_refl)).
    assert (Hl' : forall t, In t l -> P (t_start t) /\ P (t_end t)) by (intros; apply Hl; right; assumption).
    destruct (is_text (t_kind u)).
    + destruct span as [[a b]|]; eapply (IH _ Hl'); try eassumption; simpl; tauto.
    + destruct span as [[a b]|]; simpl in Ht.
      * destruct Ht as [<-|[<-|Ht]]; [exact Hs | exact Hu | exact (IH None Hl' I t Ht)].
      * destruct Ht as [<-|Ht]; [exact Hu | exact (IH None Hl' I t Ht)].
Qed.

(** ** The theorems of Props_Lexer *)
Lemma lex_tiles s :
  exists l xs, collect s false = Some l
    /\ tiles 0 (blen s) l
    /\ token_texts s l = Some xs /\ concat xs = s /\ Forall (fun x => x <> []) xs.
Proof.
  destruct (lex_total s) as (l & E & Ht). destruct (tokenizes_texts _ _ _ _ [] Ht eq_refl) as (xs & H1 & H2 & H3).
  exists l, xs. unfold collect. rewrite E. split; [reflexivity|]. split; [exact (tokenizes_tiles _ _ _ _ Ht)|].
  repeat split; assumption.
Qed.

Lemma lex_token s l l1 t l2 :
  lex s = Some l -> l = l1 ++ t :: l2 ->
  exists s1 w s2, s = s1 ++ w ++ s2 /\ blen s1 = t_start t /\ t_end t = t_start t + blen w
    /\ next_token (kind_mode (t_kind t)) (w ++ s2) (t_kind t) (length w).
Proof.
  intros H ->. apply lex_tokenizes in H. destruct (tokenizes_split _ _ _ _ _ H) as (s1 & s2 & -> & Ht & _).
  inversion Ht as [|? ? w rest k l Hn Ht' E1 E2 E3]; subst. exists s1, w, rest. simpl.
  rewrite (next_token_kind _ _ _ _ Hn). repeat split; assumption.
Qed.

Lemma lex_munch s l l1 t l2 :
  lex s = Some l -> l = l1 ++ t :: l2 ->
  exists rest n, drop_b (t_start t) s = Some rest
    /\ next_token (kind_mode (t_kind t)) rest (t_kind t) n
    /\ t_end t = t_start t + blen (firstn n rest).
Proof.
  intros H E. destruct (lex_token _ _ _ _ _ H E) as (s1 & w & s2 & -> & H1 & H2 & H3).
  exists (w ++ s2), (length w). rewrite <- H1. split; [apply drop_b_app|]. split; [exact H3|].
  rewrite firstn_app, firstn_all, Nat.sub_diag, firstn_O, app_nil_r. lia.
Qed.

Lemma lex_errors s l t :
  lex s = Some l -> In t l -> t_kind t = err_kind (kind_mode (t_kind t)) ->
  ~ In (kind_mode (t_kind t)) [MBlock; MRawComment; MRawStatement; MComment]
  /\ exists rest, drop_b (t_start t) s = Some rest /\ rest <> []
      /\ t_end t = t_start t + blen (firstn 1 rest)
      /\ forall r k n, In (r, k) (pats (kind_mode (t_kind t))) -> ~ pat_match r rest n.
Proof.
  intros H Hin He. apply in_split in Hin. destruct Hin as (l1 & l2 & E).
  destruct (lex_munch _ _ _ _ _ H E) as (rest & n & H1 & H2 & H3).
  pose proof (next_token_len _ _ _ _ H2) as Hn. remember (kind_mode (t_kind t)) as m eqn:Em.
  rewrite He in H2. apply next_token_error in H2. destruct H2 as (Hm & -> & Hp).
  split; [exact Hm|]. exists rest. split; [exact H1|]. split; [intros ->; simpl in Hn; lia|]. split; assumption.
Qed.

Lemma lex_grammar s l : lex s = Some l -> stream (map t_kind l).
Proof. intros H. apply lex_tokenizes, tokenizes_grammar in H. exact H. Qed.

Lemma lex_unique s l : lex s = Some l <-> tokenizes MBlock 0 s l.
Proof.
  split; [apply lex_tokenizes|]. intros H. destruct (lex_total s) as (l' & E & H').
  rewrite E. f_equal. eapply tokenizes_det; eassumption.
Qed.

Lemma collect_normalised s :
  exists l l', collect s false = Some l /\ collect s true = Some l'
    /\ tiles 0 (blen s) l'
    /\ (exists xs, token_texts s l' = Some xs /\ concat xs = s)
    /\ filter (fun t => negb (is_text (t_kind t))) l' = filter (fun t => negb (is_text (t_kind t))) l
    /\ no_adjacent_text l'
    /\ forall t, In t l' -> is_text (t_kind t) = true -> t_kind t = TBlock BText.
Proof.
  destruct (lex_total s) as (l & E & Ht). exists l, (normalize l). unfold collect. rewrite E.
  split; [reflexivity|]. split; [reflexivity|].
  pose proof (normalize_go_tiles l None 0 (blen s) (tokenizes_tiles _ _ _ _ Ht) I) as Hti. simpl in Hti.
  split; [exact Hti|]. split; [|split; [apply normalize_go_filter|split; [apply normalize_go_adj|]]].
  - destruct (tiles_texts s (normalize l) 0 (blen s) Hti) as (xs & H1 & H2).
    + apply normalize_go_bnd; [|exact I]. exact (tokenizes_bnd _ _ _ _ [] Ht eq_refl).
    + apply bnd_0.
    + exists xs. split; [exact H1|]. rewrite slice_all in H2. congruence.
  - intros t. apply normalize_go_text.
Qed.

(** ** Shapes of tokens *)
Lemma next_token_lang m s k n : next_token m s k n -> k <> err_kind m ->
  exists r, In (r, k) (pats m) /\ lang r (firstn n s).
Proof.
  intros [(l1 & r & l2 & E & [_ H] & _)|(_ & -> & _)] Hk; [|congruence].
  exists r. split; [rewrite E; apply in_elt | exact H].
Qed.
Lemma lex_token_lang s l t : lex s = Some l -> In t l -> t_kind t <> err_kind (kind_mode (t_kind t)) ->
  exists s1 w s2 r, s = s1 ++ w ++ s2 /\ blen s1 = t_start t /\ t_end t = t_start t + blen w
    /\ In (r, t_kind t) (pats (kind_mode (t_kind t))) /\ lang r w.
Proof.
  intros H Hin Hk. apply in_split in Hin. destruct Hin as (l1 & l2 & E).
  destruct (lex_token _ _ _ _ _ H E) as (s1 & w & s2 & Es & H1 & H2 & H3).
  destruct (next_token_lang _ _ _ _ H3 Hk) as (r & Hr & Hl).
  rewrite firstn_app, firstn_all, Nat.sub_diag, firstn_O, app_nil_r in Hl.
  exists s1, w, s2, r. repeat split; assumption.
Qed.
