(** * WhereFacts: where the parser stands while it reads one tag (C76): the byte it would report lies between the start
    of the tag and the next token to be read, and the line counter has not gone beyond the newlines read. *)
From Coq Require Import Lia String.
From Verif Require Import Str Regex Lexer Json Ast ErrInfo Parser StrFacts RegexFacts Spec_Lexer LexerFacts ParserFacts CallFacts ArgFacts LeafFacts.
Open Scope nat_scope. Open Scope list_scope.

Section Where.
Variables (cx : pctx) (all : list token) (lo l0 : nat).
Notation src := (px_src cx).
Hypothesis Hgood : good src all.
(** [l] is left to be read *)
Definition left_at (l : list token) (byte line : nat) : Prop :=
  exists pre, all = pre ++ l /\ lo <= byte <= pos src l /\ l0 <= line <= l0 + nlc pre.
Lemma left_good l b n : left_at l b n -> good src l.
Proof. intros (pre & E & _). rewrite E in Hgood. now apply good_app in Hgood. Qed.
Definition past (l : list token) (byte line : nat) : Prop := left_at l byte line /\ (byte < pos src l \/ l = []).
Lemma left_tl t l b n : left_at (t :: l) b n -> past l b n.
Proof.
  intros H. pose proof (left_good _ _ _ H) as G. apply good_cons in G. destruct G as ((_ & _ & Hlt & _) & _ & Hp).
  destruct H as (pre & E & Hb & Hn). cbn [pos] in Hb. split; [|left; lia]. exists (pre ++ [t]). rewrite <- app_assoc, nlc_app. split; [exact E|]. split; lia.
Qed.
Lemma left_start t l b n : left_at (t :: l) b n -> left_at (t :: l) (t_start t) n.
Proof. intros (pre & E & Hb & Hn). exists pre. cbn [pos] in *. repeat split; try lia. exact E. Qed.
Lemma left_start_tl t l b n : left_at (t :: l) b n -> past l (t_start t) n.
Proof. intros H. apply left_start in H. now apply left_tl in H. Qed.
Lemma left_end t l b n : left_at (t :: l) b n -> left_at l (t_end t) n.
Proof.
  intros H. pose proof (left_good _ _ _ H) as G. apply good_cons in G. destruct G as ((_ & _ & Hlt & _) & _ & Hp).
  destruct H as (pre & E & Hb & Hn). exists (pre ++ [t]). rewrite <- app_assoc, nlc_app. cbn [pos] in Hb. split; [exact E|]. split; lia.
Qed.
Lemma left_last t l b n : left_at (t :: l) b n -> past l (t_end t - 1) n.
Proof.
  intros H. pose proof (left_good _ _ _ H) as G. apply good_cons in G. destruct G as ((_ & _ & Hlt & _) & _ & Hp).
  destruct H as (pre & E & Hb & Hn). split; [|left; lia]. exists (pre ++ [t]). rewrite <- app_assoc, nlc_app. cbn [pos] in Hb. split; [exact E|]. split; lia.
Qed.
Lemma left_newline t l b n : is_newline (t_kind t) = true -> left_at (t :: l) b n -> past l b (S n).
Proof.
  intros Hn0 H. pose proof (left_tl _ _ _ _ H) as ((_ & _ & Hb & _) & Hst). split; [|exact Hst]. destruct H as (pre & E & Hb' & Hn).
  exists (pre ++ [t]). rewrite <- app_assoc, nlc_app. cbn [nlc]. unfold nl1. rewrite Hn0. split; [exact E|]. split; lia.
Qed.
(** the place the parser stands at, with the token read ahead *)
Definition there (st : pst) : Prop := past (p_toks st) (p_byte st) (p_line st).
Definition here (n : option token) (st : pst) : Prop := left_at (full n (p_toks st)) (p_byte st) (p_line st) /\ (n = None -> there st).
Lemma here_there n st : here n st -> there st.
Proof. intros [H1 H2]. destruct n; [exact (left_tl _ _ _ _ H1)|now apply H2]. Qed.
Lemma here_some t st : left_at (t :: p_toks st) (p_byte st) (p_line st) -> here (Some t) st.
Proof. intros H. split; [exact H|discriminate]. Qed.
Lemma here_none st : there st -> here None st.
Proof. intros H. split; [apply H|intros _; exact H]. Qed.
Definition calm {A} (Q : A -> pst -> Prop) (m : pres pst A) : Prop :=
  match m with POk a st => Q a st | PErr _ st => there st | _ => True end.
Lemma calm_bind {A C} (Q : A -> pst -> Prop) (Q' : C -> pst -> Prop) m f :
  calm Q m -> (forall a st, Q a st -> calm Q' (f a st)) -> calm Q' (pbind m f).
Proof. intros H Hf. destruct m as [a st| | |]; cbn [pbind]; [now apply Hf|exact H..]. Qed.
Lemma calm_mono {A} (Q Q' : A -> pst -> Prop) m : calm Q m -> (forall a st, Q a st -> Q' a st) -> calm Q' m.
Proof. intros H Hf. destruct m; cbn in *; auto. Qed.
Lemma calm_perr_n {A} (Q : A -> pst -> Prop) k notes st : there st -> calm Q (perr_n cx k notes st).
Proof. intros Hs. unfold perr_n. destruct (err_info _ _ _ _ _ notes) eqn:E; [exact Hs|exact I]. Qed.
Lemma calm_perr {A} (Q : A -> pst -> Prop) k st : there st -> calm Q (perr cx k st).
Proof. apply calm_perr_n. Qed.
Lemma calm_pslice {A} (Q : A -> pst -> Prop) o st f : (forall s, o = Some s -> calm Q (f s)) -> calm Q (pslice o st f).
Proof. intros H. destruct o; cbn; [now apply H|exact I]. Qed.
Definition rest {A} (r : A * option token) (st : pst) : Prop := here (snd r) st.
Lemma pnext_here' st : left_at (p_toks st) (p_byte st) (p_line st) -> here (fst (pnext st)) (snd (pnext st)).
Proof.
  intros H. destruct st as [[|t ts] l b]; cbn in *.
  - apply here_none. split; [exact H|now right].
  - now apply here_some.
Qed.
Lemma pnext_here st : there st -> here (fst (pnext st)) (snd (pnext st)).
Proof. intros H. apply pnext_here', H. Qed.

(** ** Strings *)
Lemma string_go_calm ty : forall toks start stop n d line byte, left_at toks byte line ->
  calm (fun r st => there st /\ fst (fst r) = start) (string_go cx ty start stop n d toks line byte).
Proof.
  induction toks as [|t ts IH]; intros start stop n d line byte Hs; cbn [string_go].
  - apply calm_perr. split; [exact Hs|now right].
  - pose proof (left_tl _ _ _ _ Hs) as Ht. destruct (lit_token ty (t_kind t)) as [q|]; [|now apply calm_perr].
    destruct q; try (apply IH; exact (proj1 Ht)); try (apply IH; exact (proj1 (left_last _ _ _ _ Hs))); try (now apply calm_perr). now split.
Qed.
Lemma left_mono l b n b' : left_at l b n -> lo <= b' <= b -> left_at l b' n.
Proof. intros (pre & E & Hb & Hn) H. exists pre. split; [exact E|]. split; [lia|exact Hn]. Qed.
Lemma string_go_left ty : forall toks start stop n d line byte x, left_at toks byte line -> lo <= x <= pos src toks ->
  calm (fun r st => lo <= x < pos src (p_toks st)) (string_go cx ty start stop n d toks line byte).
Proof.
  induction toks as [|t ts IH]; intros start stop n d line byte x Hs Hx; cbn [string_go].
  - apply calm_perr. split; [exact Hs|now right].
  - pose proof (left_tl _ _ _ _ Hs) as Ht. destruct (lit_token ty (t_kind t)) as [q|]; [|now apply calm_perr].
    assert (Hx' : lo <= x < pos src ts).
    { pose proof (left_good _ _ _ Hs) as G. apply good_cons in G. destruct G as ((_ & _ & Hlt & _) & _ & Hp). cbn [pos] in Hx. lia. }
    destruct q; try (apply IH; [exact (proj1 Ht)|lia]); try (apply IH; [exact (proj1 (left_last _ _ _ _ Hs))|lia]); try (now apply calm_perr). exact Hx'.
Qed.
Lemma calm_and {A} (Q Q' : A -> pst -> Prop) m : calm Q m -> calm Q' m -> calm (fun a st => Q a st /\ Q' a st) m.
Proof. destruct m; cbn; auto. Qed.
Lemma string_parse_calm ty t st : left_at (t :: p_toks st) (p_byte st) (p_line st) ->
  calm (fun r st => there st /\ there (set_byte (fst (fst r)) st)) (string_parse cx ty (tspan t) st).
Proof.
  intros Hs. unfold string_parse. pose proof (left_tl _ _ _ _ Hs) as Ht. change (snd (tspan t)) with (t_end t).
  assert (Hx : lo <= t_end t <= pos src (p_toks st)) by (destruct (left_end _ _ _ _ Hs) as (_ & _ & H & _); exact H).
  eapply calm_mono; [apply calm_and; [apply string_go_calm; exact (proj1 Ht)|apply string_go_left with (x := t_end t); [exact (proj1 Ht)|exact Hx]]|].
  intros r st' ((H1 & ->) & H2). split; [exact H1|]. destruct H1 as ((pre & E & _ & Hn) & _). split; [exists pre|left]; cbn [p_byte p_toks p_line set_byte]; [|lia]. split; [exact E|]. split; [lia|exact Hn].
Qed.

(** ** Paths *)
Lemma to_component_calm k sp raw st : there st -> calm (fun _ st' => st' = st) (to_component cx k sp raw st).
Proof.
  intros Hs. unfold to_component.
  assert (H : forall v, calm (fun (_ : component) st' => st' = st) match comp_kind_of k with Some kind => POk (mkComp kind sp v) st | None => perr cx SComponentType st end).
  { intros v. destruct (comp_kind_of k); [reflexivity|now apply calm_perr]. }
  destruct raw as [r|]; [|apply H]. destruct (has_escapes r); [|apply H]. apply calm_pslice. intros s _. apply H.
Qed.
Lemma components_calm : forall fuel p w st, there st -> calm rest (components fuel cx p w st).
Proof.
  induction fuel as [|fuel IH]; intros p w st Hs; [exact I|]. rewrite components_eq.
  destruct (p_toks st) as [|t ts] eqn:E; [exact (here_none _ Hs)|]. cbv zeta. unfold there in Hs. rewrite E in Hs. destruct Hs as [Hs _].
  pose proof (left_tl _ _ _ _ Hs) as Ht.
  destruct (is_newline (t_kind t)) eqn:En.
  - unfold calm, rest. cbn [snd]. apply (pnext_here (inc_line (mkPst ts (p_line st) (p_byte st)))). exact (left_newline _ _ _ _ En Hs).
  - assert (Hstop : calm rest (POk (p, Some t) (mkPst ts (p_line st) (p_byte st)))) by (apply here_some; exact Hs).
    destruct (t_kind t) as [q|q|q|q|k|q|q|q|q] eqn:Ek; try exact Hstop. clear Hstop.
    destruct (comp_action k).
    + apply here_some. exact (left_start _ _ _ _ Hs).
    + apply calm_perr. exact (left_start_tl _ _ _ _ Hs).
    + unfold comp_tail. set (st1 := set_byte (t_start t) (mkPst ts (p_line st) (p_byte st))).
      pose proof (left_start _ _ _ _ Hs) as Hs1.
      apply calm_bind with (Q := fun r st => there st /\ there (set_byte (fst (fst r)) st)).
      * destruct (lit_of_param k) as [ty|].
        -- eapply calm_bind; [apply (string_parse_calm ty t st1); exact Hs1|]. intros [sp raw] st' H. exact H.
        -- split; exact (left_start_tl _ _ _ _ Hs).
      * intros [sp raw] st' (H1 & H2). cbn [fst] in H2.
        assert (Hc : calm rest (if w then perr cx SExpectedPathDelimiter (set_byte (fst sp) st')
            else pbind (to_component cx k sp raw st') (fun c st => components fuel cx (path_add c (path_set_end (t_end t) p)) true st))).
        { destruct w; [now apply calm_perr|]. eapply calm_bind; [now apply to_component_calm|]. intros c st2 ->. now apply IH. }
        destruct k; try exact Hc. destruct w; [now apply IH|now apply calm_perr].
Qed.
Lemma path_first_calm p k t toks line : past toks (t_start t) line -> calm rest (path_first cx p k t toks line).
Proof.
  intros Hs. unfold path_first. cbv zeta. eapply calm_bind; [apply to_component_calm; exact Hs|].
  intros c st ->. destruct (comp_is_root (px_src cx) c) as [root|]; [|exact I].
  destruct (comp_is_local c && _); [now apply calm_perr|]. destruct (comp_is_explicit c && _); [now apply calm_perr|].
  eapply calm_bind; [apply components_calm; exact Hs|]. intros [p3 nx] st H2.
  destruct (path_is_empty p3); [apply calm_perr; exact (here_there _ _ H2)|exact H2].
Qed.
Lemma path_loop_calm : forall toks p next line byte, here next (mkPst toks line byte) -> calm rest (path_loop cx p next toks line byte).
Proof.
  induction toks as [|t' ts IH]; intros p next line byte Hs; rewrite path_loop_eq; (destruct next as [t|]; [|exact Hs]); apply proj1 in Hs; cbn [full p_toks p_line p_byte] in Hs; pose proof (left_tl _ _ _ _ Hs) as Ht; pose proof (left_start_tl _ _ _ _ Hs) as Hst;
    (destruct (t_kind t) as [q|q|q|q|k|q|q|q|q]; try (now apply calm_perr));
    (destruct (is_path_component k); [now apply path_first_calm|]).
  - exact (here_none (mkPst [] line (t_start t)) Hst).
  - apply IH. apply here_some. exact (proj1 Hst).
Qed.
Lemma parents_left c : forall toks n m nx ts b l, parents_go c n toks = Some (m, nx, ts) -> left_at toks b l -> here nx (mkPst ts l b).
Proof.
  induction toks as [|t toks IH]; intros n m nx ts b l H Hs; cbn [parents_go] in H; [injection H as _ <- <-; apply here_none; split; [exact Hs|now right]|].
  assert (Hst : Some (n, Some t, toks) = Some (m, nx, ts) -> here nx (mkPst ts l b)) by (intros [= _ <- <-]; apply here_some; exact Hs).
  destruct (t_kind t) as [q|q|q|q|k|q|q|q|q]; try (exact (Hst H)). destruct k; try (exact (Hst H)).
  apply left_tl, proj1 in Hs. destruct (n =? 255)%N; [destruct c; [discriminate|]|]; eapply IH; eassumption.
Qed.
Lemma path_parse_calm k t st : left_at (t :: p_toks st) (p_byte st) (p_line st) -> calm rest (path_parse cx k t st).
Proof.
  intros Hs. pose proof (left_tl _ _ _ _ Hs) as Ht. unfold path_parse. cbv zeta. apply calm_pslice. intros s _.
  assert (Hd : calm rest (path_loop cx (path_new (tspan t) (line_range st)) (Some t) (p_toks st) (p_line st) (p_byte st))) by (apply path_loop_calm, here_some; exact Hs).
  destruct k; try exact Hd.
  - destruct (parents_go _ _ _) as [[[n nx] ts]|] eqn:E; [|exact I]. apply path_loop_calm. eapply parents_left; [eassumption|exact (proj1 Ht)].
  - destruct (streq s [47%N]); [|now apply calm_perr]. pose proof (pnext_here st Ht) as H1. destruct (pnext st) as [nx [ts' l' b']]. now apply path_loop_calm.
Qed.

(** ** Calls *)
Lemma json_literal_calm k t st : left_at (t :: p_toks st) (p_byte st) (p_line st) -> calm (fun _ st => there st) (json_literal cx k t st).
Proof.
  intros Hs. pose proof (left_tl _ _ _ _ Hs) as Ht.
  assert (Hl : forall ty, calm (fun _ st => there st) (pbind (string_literal cx ty (tspan t) st) (fun r st => POk (fst r, (t_start t, snd (snd r) + 1)) st))).
  { intros ty. unfold string_literal. apply calm_bind with (Q := fun _ st => there st).
    - eapply calm_bind; [apply string_parse_calm; exact Hs|]. intros [sp fl] st' (H1 & _). apply calm_pslice. intros v _. exact H1.
    - intros r st' H. exact H. }
  unfold json_literal. destruct k; try exact Ht; try apply Hl; try (now apply calm_perr).
  apply calm_pslice. intros s Es. destruct (parse_number _ s); [exact Ht|exact I].
Qed.
Lemma count_here k t st : t_kind t = TParam k -> left_at (t :: p_toks st) (p_byte st) (p_line st) ->
  here (fst (pnext (count_line k st))) (snd (pnext (count_line k st))).
Proof.
  intros Ek Hs. apply pnext_here. destruct k; try exact (left_tl _ _ _ _ Hs). apply (left_newline t); [rewrite Ek; reflexivity|exact Hs].
Qed.
Definition call_calm_at fuel : Prop :=
  (forall t st, left_at (t :: p_toks st) (p_byte st) (p_line st) -> calm rest (sub_expr fuel cx (tspan t) st))
  /\ (forall k t st, left_at (t :: p_toks st) (p_byte st) (p_line st) -> calm rest (value_ fuel cx k t st))
  /\ (forall c t ctx st, left_at (t :: p_toks st) (p_byte st) (p_line st) -> calm rest (key_value fuel cx c t ctx st))
  /\ (forall c n ctx st, here n st -> calm rest (kv_loop fuel cx c n ctx st))
  /\ (forall c n ctx st, here n st -> calm rest (arguments fuel cx c n ctx st))
  /\ (forall c n ctx st, here n st -> calm rest (call_target fuel cx c n ctx st)).
Lemma call_calm : forall fuel, call_calm_at fuel.
Proof.
  induction fuel as [|fuel IH]; [repeat split; intros; exact I|]. destruct IH as (Isub & Ival & Ikv & Ikl & Iarg & Itgt).
  split; [|split; [|split; [|split; [|split]]]].
  - intros t st Hs. rewrite sub_expr_eq. cbv zeta.
    pose proof (pnext_here' (set_byte (snd (tspan t)) st) (left_end _ _ _ _ Hs)) as H1.
    eapply calm_bind; [apply Itgt; exact H1|]. intros [c n] st1 R1. cbn [fst snd] in *.
    eapply calm_bind; [apply Iarg; exact R1|]. intros [c2 n2] st2 R2. cbn [fst snd] in *.
    destruct (call_is_closed c2); [exact R2|apply calm_perr; exact (here_there _ _ R2)].
  - intros k t st Hs. rewrite value_eq. pose proof (left_tl _ _ _ _ Hs) as Ht. destruct (val_action k).
    + eapply calm_bind; [apply path_parse_calm; exact Hs|]. intros [p n] st1 R. cbn [fst snd]. destruct p; [exact R|apply calm_perr; exact (here_there _ _ R)].
    + eapply calm_bind; [apply Isub; exact Hs|]. intros r st1 R. exact R.
    + eapply calm_bind; [apply json_literal_calm; exact Hs|]. intros r st1 R. exact (pnext_here st1 R).
    + now apply calm_perr.
  - intros c t ctx st Hs. rewrite key_value_eq. apply calm_pslice. intros key _. pose proof (left_tl _ _ _ _ Hs) as Ht.
    destruct (p_toks st) as [|u us] eqn:E; [apply Ikl, here_none; unfold there; rewrite E; exact Ht|]. apply proj1 in Ht.
    destruct (t_kind u) eqn:Eu; try (apply calm_perr; exact (left_tl _ _ _ _ Ht)).
    eapply calm_bind; [apply Ival; exact Ht|]. intros r st1 R. apply Ikl. exact R.
  - intros c n ctx st Hs. rewrite kv_loop_eq. destruct n as [t|]; [|exact Hs]. apply proj1 in Hs. cbn [full] in Hs. pose proof (left_tl _ _ _ _ Hs) as Ht.
    destruct (t_kind t) as [q|q|q|q|k|q|q|q|q] eqn:Ek; try (now apply calm_perr).
    destruct (kv_action k).
    + apply Ikl. now apply (count_here k t).
    + now apply Ikv.
    + exact (here_none _ Ht).
    + destruct ctx; [now apply calm_perr|]. exact (pnext_here st Ht).
    + now apply calm_perr.
  - intros c n ctx st Hs. rewrite arguments_eq. destruct n as [t|]; [|exact Hs]. apply proj1 in Hs. cbn [full] in Hs. pose proof (left_tl _ _ _ _ Hs) as Ht.
    destruct (t_kind t) as [q|q|q|q|k|q|q|q|q] eqn:Ek; try (now apply calm_perr).
    destruct (arg_action k).
    + apply Iarg. now apply (count_here k t).
    + now apply calm_perr.
    + exact (here_none _ Ht).
    + eapply calm_bind; [apply Ival; exact Hs|]. intros r st1 R. apply Iarg. exact R.
    + now apply Ikv.
    + destruct ctx; [now apply calm_perr|]. exact (pnext_here st Ht).
    + exact (here_none _ Ht).
  - intros c n ctx st Hs. rewrite call_target_eq. destruct n as [t|]; [|exact Hs]. apply proj1 in Hs. cbn [full] in Hs. pose proof (left_tl _ _ _ _ Hs) as Ht.
    destruct (t_kind t) as [q|q|q|q|k|q|q|q|q] eqn:Ek; try (now apply calm_perr).
    destruct (tgt_action k).
    + apply Itgt. now apply (count_here k t).
    + now apply calm_perr.
    + eapply calm_bind; [apply path_parse_calm; exact Hs|]. intros r st1 R. exact R.
    + destruct ctx; [|now apply calm_perr]. eapply calm_bind; [apply Isub; exact Hs|]. intros r st1 R. exact R.
    + destruct (call_has_target _ c) as [has|]; [|exact I]. destruct (negb has && _); [now apply calm_perr|exact (here_none _ Ht)].
Qed.
Lemma flags_calm : forall toks c n line byte, here n (mkPst toks line byte) ->
  here (snd (fst (flags_go c n toks line byte))) (snd (flags_go c n toks line byte)).
Proof.
  induction toks as [|u us IH]; intros c n line byte Hs; cbn [flags_go];
    (destruct n as [t|]; [|exact Hs]); pose proof (left_tl _ _ _ _ (proj1 Hs)) as Ht; cbn [p_toks p_line p_byte] in Ht;
    (destruct (t_kind t) as [q|q|q|q|k|q|q|q|q] eqn:Ek; try exact Hs);
    (destruct k; try exact Hs; try exact (here_none (mkPst [] line byte) Ht); try exact (here_some u (mkPst us line byte) (proj1 Ht)); try (apply IH; exact (here_some u (mkPst us line byte) (proj1 Ht)))).
  - apply (here_none (mkPst [] (S line) byte)). apply (left_newline t); [rewrite Ek; reflexivity|exact (proj1 Hs)].
  - apply IH. apply (here_some u (mkPst us (S line) byte)). apply (left_newline t); [rewrite Ek; reflexivity|exact (proj1 Hs)].
Qed.
Lemma call_parse_calm t st : left_at (t :: p_toks st) (t_start t) (p_line st) -> calm (fun _ st => there st) (call_parse cx (tspan t) st).
Proof.
  intros Hs. unfold call_parse. cbv zeta.
  pose proof (pnext_here' (set_byte (snd (tspan t)) st) (left_end _ _ _ _ Hs)) as H1.
  destruct (pnext (set_byte (snd (tspan t)) st)) as [n st1]. cbn [fst snd] in *.
  destruct st1 as [ts1 ln1 by1]. pose proof (flags_calm ts1 (call_new (tspan t) (line_range (set_byte (snd (tspan t)) st))) n ln1 by1 H1) as R. cbn [p_toks p_line p_byte].
  destruct (flags_go _ n _ _ _) as [[c n2] st2]. cbn [fst snd] in *.
  destruct (c_partial c && c_conditional c); [apply calm_perr; exact (here_there _ _ R)|].
  pose proof (call_calm (call_fuel st2)) as (_ & _ & _ & _ & _ & Itgt).
  eapply calm_bind; [apply Itgt; exact R|]. intros [c3 n3] st3 R3. cbn [fst snd] in *.
  pose proof (call_calm (call_fuel st3)) as (_ & _ & _ & _ & Iarg & _).
  eapply calm_bind; [apply Iarg; exact R3|]. intros [c4 n4] st4 R4. exact (here_there _ _ R4).
Qed.
End Where.
