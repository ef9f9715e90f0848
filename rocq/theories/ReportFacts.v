(** * ReportFacts: where the parser stands when it reports an error, and that the report can be made there (C10). *)
From Coq Require Import Lia String.
From Verif Require Import Str Regex Lexer Json Ast ErrInfo Parser StrFacts RegexFacts Spec_Lexer LexerFacts ParserFacts CallFacts ArgFacts LeafFacts TreeFacts BlockFacts DocFacts DocProps Spec_Panic Spec_Report.
Open Scope nat_scope. Open Scope list_scope.

Definition quote_tok (k : tkind) : option tquote := match k with TDouble q | TSingle q | TArray q => Some q | _ => None end.
Lemma lit_quote ty k q : lit_token ty k = Some q -> quote_tok k = Some q.
Proof. destruct ty, k; try discriminate; exact (fun H => H). Qed.

Section Walk.
Variables (cx : pctx) (all : list token).
(** a report can be made at this byte *)
Definition B (byte : nat) : Prop := forall line notes, err_info (pe_width (px_env cx)) (px_file cx) (px_src cx) line byte notes <> None.
Definition G (t : token) : Prop :=
  (is_tag_open (t_kind t) = true -> B (t_end t))
  /\ (t_kind t = TBlock BEndBlockScope -> B (t_start t))
  /\ (forall k, t_kind t = TParam k -> k <> KNewline -> B (t_start t))
  /\ (t_kind t = TParam KNumber -> forall s, sl (px_src cx) (tspan t) = Some s -> parse_number (pe_num (px_env cx)) s <> None)
  /\ (forall q, quote_tok (t_kind t) = Some q -> q <> QNewline -> B (t_start t) /\ B (t_end t - 1))
  /\ (forall k, t_kind t = TLink k -> k <> LNewline /\ B (t_end t - 1)).
Hypothesis HG : Forall G all.
Hypothesis Hadj : forall l1 t u l2, all = l1 ++ t :: u :: l2 -> t_end t = t_start u.
Hypothesis Hnl : forall l1 t u l2, all = l1 ++ t :: u :: l2 -> t_kind t = TParam KNewline -> exists k, t_kind u = TParam k.
Hypothesis Hlast : forall l t, all = l ++ [t] -> t_kind t <> TParam KNewline /\ is_body_open (t_kind t) = false.
Hypothesis Hbody : forall t l u, In t all -> is_body_open (t_kind t) = true -> all = l ++ [u] -> B (t_end u - 1).
Definition suf (l : list token) : Prop := exists pre, all = pre ++ l.
Hypothesis Hpar : forall t l, t_kind t = TParam KParentRef -> suf (t :: l) -> parents_go (pe_checked (px_env cx)) 1%N l <> None.
Hypothesis H0 : B 0.

Lemma suf_tl t l : suf (t :: l) -> suf l.
Proof. intros (pre & E). exists (pre ++ [t]). now rewrite <- app_assoc. Qed.
Lemma suf_in l : suf l -> Forall G l.
Proof. intros (pre & E). rewrite E in HG. apply Forall_app in HG. apply HG. Qed.
Lemma suf_hd t l : suf (t :: l) -> G t.
Proof. intros H. apply suf_in in H. now inversion H. Qed.
Lemma suf_nil : suf [].
Proof. exists all. now rewrite app_nil_r. Qed.

Definition calm {A} (Q : A -> pst -> Prop) (m : pres pst A) : Prop :=
  match m with POk a st => B (p_byte st) /\ Q a st | PErr _ st => suf (p_toks st) | PPanic p => p = PanSlice \/ p = PanUnwrap | PFuel => True end.
Lemma calm_bind {A C} (Q : A -> pst -> Prop) (Q' : C -> pst -> Prop) m f :
  calm Q m -> (forall a st, B (p_byte st) -> Q a st -> calm Q' (f a st)) -> calm Q' (pbind m f).
Proof. intros H Hf. destruct m as [a st| | |]; cbn [pbind]; [destruct H; now apply Hf|exact H..]. Qed.
Lemma calm_mono {A} (Q Q' : A -> pst -> Prop) m : calm Q m -> (forall a st, Q a st -> Q' a st) -> calm Q' m.
Proof. intros H Hf. destruct m; cbn in *; try exact H. destruct H; split; auto. Qed.
Lemma calm_perr_n {A} (Q : A -> pst -> Prop) k notes st : B (p_byte st) -> suf (p_toks st) -> calm Q (perr_n cx k notes st).
Proof. intros Hb Hs. unfold perr_n. destruct (err_info _ _ _ _ _ notes) eqn:E; [exact Hs|]. exfalso. exact (Hb _ _ E). Qed.
Lemma calm_perr {A} (Q : A -> pst -> Prop) k st : B (p_byte st) -> suf (p_toks st) -> calm Q (perr cx k st).
Proof. apply calm_perr_n. Qed.
Lemma calm_pslice {A} (Q : A -> pst -> Prop) o st f : (forall s, o = Some s -> calm Q (f s)) -> calm Q (pslice o st f).
Proof. intros H. destruct o; cbn; [now apply H|now left]. Qed.
(** the rest of the tokens, with the one read ahead *)
Definition rest {A} (r : A * option token) (st : pst) : Prop := suf (full (snd r) (p_toks st)).
Lemma pnext_suf st : suf (p_toks st) -> suf (full (fst (pnext st)) (p_toks (snd (pnext st)))) /\ p_byte (snd (pnext st)) = p_byte st.
Proof. destruct (pnext_full st) as (E & _ & E2). rewrite E. auto. Qed.
Lemma full_tl n l : suf (full n l) -> suf l.
Proof. destruct n; [apply suf_tl|exact (fun H => H)]. Qed.

(** ** Strings *)
Lemma string_go_calm ty : forall toks start stop n d line byte, suf toks -> B byte ->
  calm (fun r st => suf (p_toks st) /\ fst (fst r) = start /\ exists u us q, toks = u :: us /\ quote_tok (t_kind u) = Some q /\ q <> QNewline)
    (string_go cx ty start stop n d toks line byte).
Proof.
  induction toks as [|t ts IH]; intros start stop n d line byte Hs Hb; cbn [string_go].
  - now apply calm_perr.
  - destruct (lit_token ty (t_kind t)) as [q|] eqn:E; [|apply calm_perr; [exact Hb|exact (suf_tl _ _ Hs)]].
    apply lit_quote in E. pose proof (suf_hd _ _ Hs) as (_ & _ & _ & _ & Gq & _). specialize (Gq _ E). pose proof (suf_tl _ _ Hs) as Ht.
    assert (Hrec : forall stop n d byte, q <> QNewline -> B byte -> calm (fun r st => suf (p_toks st) /\ fst (fst r) = start /\ exists u us q0, t :: ts = u :: us /\ quote_tok (t_kind u) = Some q0 /\ q0 <> QNewline) (string_go cx ty start stop n d ts line byte)).
    { intros stop' n' d' byte' Hq Hb'. eapply calm_mono; [apply IH; assumption|]. intros r st (H1 & H2 & _). split; [exact H1|]. split; [exact H2|]. exists t, ts, q. auto. }
    destruct q; try (apply Hrec; [discriminate|assumption]); try (apply Hrec; [discriminate|apply Gq; discriminate]).
    + cbn [calm p_byte]. split; [exact Hb|]. split; [exact Ht|]. split; [reflexivity|]. exists t, ts, QEnd. repeat split; try assumption. discriminate.
    + now apply calm_perr.
Qed.
Lemma string_parse_calm ty t st : suf (t :: p_toks st) -> B (p_byte st) ->
  calm (fun r st => suf (p_toks st) /\ B (fst (fst r))) (string_parse cx ty (tspan t) st).
Proof.
  intros Hs Hb. unfold string_parse. pose proof (suf_tl _ _ Hs) as Ht. eapply calm_mono; [apply string_go_calm; assumption|].
  intros r st' (H1 & -> & u & us & q & E & Eq & Hq). split; [exact H1|]. rewrite E in Hs, Ht.
  destruct Hs as (pre & Epre). change (snd (tspan t)) with (t_end t). rewrite (Hadj _ _ _ _ Epre).
  pose proof (suf_hd _ _ Ht) as (_ & _ & _ & _ & Gq & _). now apply (Gq q).
Qed.

(** ** Paths *)
Lemma to_component_calm k sp raw st : B (p_byte st) -> suf (p_toks st) -> calm (fun _ st' => st' = st) (to_component cx k sp raw st).
Proof.
  intros Hb Hs. unfold to_component.
  assert (H : forall v, calm (fun (_ : component) st' => st' = st) match comp_kind_of k with Some kind => POk (mkComp kind sp v) st | None => perr cx SComponentType st end).
  { intros v. destruct (comp_kind_of k); [now split|now apply calm_perr]. }
  destruct raw as [r|]; [|apply H]. destruct (has_escapes r); [|apply H]. apply calm_pslice. intros s _. apply H.
Qed.
Definition path_at (b : nat) (p : path) : Prop := fst (pa_span p) = b.
Lemma components_calm b : forall fuel p w st, path_at b p -> suf (p_toks st) -> B (p_byte st) ->
  calm (fun r st => path_at b (fst r) /\ rest r st) (components fuel cx p w st).
Proof.
  induction fuel as [|fuel IH]; intros p w st Hp Hs Hb; [exact I|]. rewrite components_eq.
  destruct (p_toks st) as [|t ts] eqn:E; [split; [exact Hb|split; [exact Hp|unfold rest; cbn; rewrite E; exact Hs]]|]. cbv zeta.
  pose proof (suf_tl _ _ Hs) as Ht.
  destruct (is_newline (t_kind t)) eqn:En.
  - destruct (pnext_suf (inc_line (mkPst ts (p_line st) (p_byte st))) Ht) as (H1 & H2). split; [rewrite H2; exact Hb|]. split; [exact Hp|exact H1].
  - assert (Hstop : calm (fun r st => path_at b (fst r) /\ rest r st) (POk (p, Some t) (mkPst ts (p_line st) (p_byte st)))) by (split; [exact Hb|split; [exact Hp|exact Hs]]).
    destruct (t_kind t) as [q|q|q|q|k|q|q|q|q] eqn:Ek; try exact Hstop. clear Hstop.
    pose proof (suf_hd _ _ Hs) as (_ & _ & Gp & _). assert (Bt : B (t_start t)) by (apply (Gp k Ek); destruct k; try discriminate; discriminate En).
    destruct (comp_action k).
    + split; [exact Bt|]. split; [exact Hp|exact Hs].
    + apply calm_perr; [exact Bt|exact Ht].
    + unfold comp_tail. set (st1 := set_byte (t_start t) (mkPst ts (p_line st) (p_byte st))).
      apply calm_bind with (Q := fun r st => suf (p_toks st) /\ B (fst (fst r))).
      * destruct (lit_of_param k) as [ty|].
        -- apply calm_bind with (Q := fun r st => suf (p_toks st) /\ B (fst (fst r))); [apply string_parse_calm; [exact Hs|exact Bt]|].
           intros [sp raw] st' Hb' (H1 & H2). split; [exact Hb'|]. split; [exact H1|exact H2].
        -- split; [exact Bt|]. split; [exact Ht|exact Bt].
      * intros [sp raw] st' Hb' (H1 & H2). cbn [fst] in H2.
        assert (Hc : calm (fun r st => path_at b (fst r) /\ rest r st) (if w then perr cx SExpectedPathDelimiter (set_byte (fst sp) st')
            else pbind (to_component cx k sp raw st') (fun c st => components fuel cx (path_add c (path_set_end (t_end t) p)) true st))).
        { destruct w; [apply calm_perr; [exact H2|exact H1]|]. eapply calm_bind; [apply to_component_calm; assumption|].
          intros c st2 Hb2 ->. apply IH; [exact Hp|exact H1|exact Hb2]. }
        destruct k; try exact Hc. destruct w; [apply IH; assumption|apply calm_perr; [exact H2|exact H1]].
Qed.
Definition opath_at (b : nat) (r : option path * option token) (st : pst) : Prop := (forall p, fst r = Some p -> path_at b p) /\ rest r st.
Lemma path_first_calm b p k t toks line : path_at b p -> suf toks -> B (t_start t) -> calm (opath_at b) (path_first cx p k t toks line).
Proof.
  intros Hp Hs Hb. unfold path_first. cbv zeta. eapply calm_bind; [apply to_component_calm; [exact Hb|exact Hs]|].
  intros c st Hb1 ->. destruct (comp_is_root (px_src cx) c) as [root|]; [|now left].
  set (p1 := if path_is_empty _ && root then _ else _). set (p2 := if comp_is_explicit c then _ else p1).
  assert (Hp2 : path_at b p2) by (subst p2 p1; destruct (comp_is_explicit c), (path_is_empty _ && root); exact Hp).
  clearbody p2. clear p1. destruct (comp_is_local c && _); [now apply calm_perr|]. destruct (comp_is_explicit c && _); [now apply calm_perr|].
  eapply calm_bind; [apply (components_calm b); [exact Hp2|exact Hs|exact Hb]|]. intros [p3 nx] st Hb3 (H1 & H2).
  destruct (path_is_empty p3); [apply calm_perr; [exact Hb3|exact (full_tl _ _ H2)]|]. split; [exact Hb3|]. split; [intros q [= <-]; exact H1|exact H2].
Qed.
Lemma path_loop_calm b : forall toks p next line byte, path_at b p -> suf (full next toks) ->
  B byte \/ (exists t k, next = Some t /\ t_kind t = TParam k) -> calm (opath_at b) (path_loop cx p next toks line byte).
Proof.
  assert (Hnone : forall toks line byte, suf toks -> B byte -> calm (opath_at b) (POk (None, None) (mkPst toks line byte))).
  { intros toks line byte Hs Hb. split; [exact Hb|]. split; [discriminate|exact Hs]. }
  assert (Bt : forall t ts k, suf (t :: ts) -> t_kind t = TParam k -> k <> KNewline -> B (t_start t)).
  { intros t ts k Hs Ek Hk. pose proof (suf_hd _ _ Hs) as (_ & _ & Gp & _). exact (Gp k Ek Hk). }
  induction toks as [|t' ts IH]; intros p next line byte Hp Hs Hb; rewrite path_loop_eq; (destruct next as [t|]; [|apply Hnone; [exact Hs|]; destruct Hb as [Hb|(? & ? & ? & _)]; [exact Hb|discriminate]]);
    cbn [full] in Hs; pose proof (suf_tl _ _ Hs) as Ht;
    (destruct (t_kind t) as [q|q|q|q|k|q|q|q|q] eqn:Ek;
      try (apply calm_perr; [destruct Hb as [Hb|(u & k & Eu & Eq)]; [exact Hb|injection Eu as <-; congruence]|exact Ht])).
  - destruct (is_path_component k) eqn:Ec; [apply path_first_calm; [exact Hp|exact Ht|]; apply (Bt _ _ _ Hs Ek); destruct k; discriminate|].
    apply Hnone; [exact Ht|]. apply (Bt _ _ _ Hs Ek). intros ->. destruct Hs as (pre & Ep). exact (proj1 (Hlast _ _ Ep) Ek).
  - destruct (is_path_component k) eqn:Ec; [apply path_first_calm; [exact Hp|exact Ht|]; apply (Bt _ _ _ Hs Ek); destruct k; discriminate|].
    apply IH; [exact Hp|exact Ht|]. destruct k; try (left; apply (Bt _ _ _ Hs Ek); discriminate).
    right. destruct Hs as (pre & Ep). destruct (Hnl _ _ _ _ Ep Ek) as (k & E). exists t', k. split; [reflexivity|exact E].
Qed.
Lemma parents_suf c : forall toks n m nx ts, parents_go c n toks = Some (m, nx, ts) -> suf toks -> suf (full nx ts).
Proof.
  induction toks as [|t toks IH]; intros n m nx ts H Hs; cbn [parents_go] in H; [injection H as _ <- <-; exact Hs|].
  assert (Hst : Some (n, Some t, toks) = Some (m, nx, ts) -> suf (full nx ts)) by (intros [= _ <- <-]; exact Hs).
  destruct (t_kind t) as [q|q|q|q|k|q|q|q|q]; try (exact (Hst H)). destruct k; try (exact (Hst H)).
  apply suf_tl in Hs. destruct (n =? 255)%N; [destruct c; [discriminate|]|]; eapply IH; eassumption.
Qed.
Lemma path_parse_calm k t st : suf (t :: p_toks st) -> t_kind t = TParam k -> k <> KNewline -> B (p_byte st) -> calm (opath_at (t_start t)) (path_parse cx k t st).
Proof.
  intros Hs Ek Hk Hb. pose proof (suf_tl _ _ Hs) as Ht. unfold path_parse. cbv zeta. apply calm_pslice. intros s _.
  assert (Hd : calm (opath_at (t_start t)) (path_loop cx (path_new (tspan t) (line_range st)) (Some t) (p_toks st) (p_line st) (p_byte st))).
  { apply path_loop_calm; [reflexivity|exact Hs|now left]. }
  destruct k; try exact Hd.
  - pose proof (Hpar _ _ Ek Hs) as Hn. destruct (parents_go _ _ _) as [[[n nx] ts]|] eqn:E; [|congruence].
    apply path_loop_calm; [reflexivity|eapply parents_suf; eassumption|now left].
  - destruct (streq s [47%N]); [|now apply calm_perr]. destruct (pnext_suf st Ht) as (H1 & H2). destruct (pnext st) as [nx st']. cbn [fst snd] in *.
    apply path_loop_calm; [reflexivity|exact H1|left; rewrite H2; exact Hb].
Qed.

(** ** Calls *)
Lemma json_literal_calm k t st : suf (t :: p_toks st) -> t_kind t = TParam k -> B (p_byte st) -> calm (fun _ st => suf (p_toks st)) (json_literal cx k t st).
Proof.
  intros Hs Ek Hb. pose proof (suf_tl _ _ Hs) as Ht.
  assert (Hl : forall ty, calm (fun _ st => suf (p_toks st)) (pbind (string_literal cx ty (tspan t) st) (fun r st => POk (fst r, (t_start t, snd (snd r) + 1)) st))).
  { intros ty. unfold string_literal. apply calm_bind with (Q := fun _ st => suf (p_toks st)).
    - eapply calm_bind; [apply string_parse_calm; [exact Hs|exact Hb]|]. intros [sp fl] st' Hb' (H1 & _). apply calm_pslice. intros v _. now split.
    - intros r st' Hb' H. now split. }
  unfold json_literal. destruct k; try (split; [exact Hb|exact Ht]); try apply Hl; try (now apply calm_perr).
  apply calm_pslice. intros s Es. pose proof (suf_hd _ _ Hs) as (_ & _ & _ & Gn & _). specialize (Gn Ek s Es). destruct (parse_number _ s); [now split|congruence].
Qed.
(** the call so far, and where its target starts *)
Definition TG (c : call) : Prop := B (fst (target_span (c_target c))).
Definition cgood (r : call * option token) (st : pst) : Prop := TG (fst r) /\ rest r st.
Lemma TG_new open ln : TG (call_new open ln).
Proof. exact H0. Qed.
Lemma count_line_same k st : p_toks (count_line k st) = p_toks st /\ p_byte (count_line k st) = p_byte st.
Proof. destruct k; split; reflexivity. Qed.
Lemma count_next k st n : suf (full n (p_toks st)) -> B (p_byte st) -> n <> None ->
  suf (full (fst (pnext (count_line k st))) (p_toks (snd (pnext (count_line k st))))) /\ B (p_byte (snd (pnext (count_line k st)))).
Proof.
  intros Hs Hb Hn. destruct (count_line_same k st) as (E1 & E2).
  destruct (pnext_suf (count_line k st)) as (H1 & H2); [rewrite E1; exact (full_tl _ _ Hs)|]. rewrite H2, E2. now split.
Qed.
Definition call_calm_at fuel : Prop :=
  (forall t st, suf (t :: p_toks st) -> t_kind t = TParam KStartSub ->
      calm (fun r st => c_open (fst r) = tspan t /\ rest r st) (sub_expr fuel cx (tspan t) st))
  /\ (forall k t st, suf (t :: p_toks st) -> t_kind t = TParam k -> B (p_byte st) -> calm rest (value_ fuel cx k t st))
  /\ (forall c t ctx st, TG c -> suf (t :: p_toks st) -> B (p_byte st) -> calm (fun r st => cgood r st /\ c_open (fst r) = c_open c) (key_value fuel cx c t ctx st))
  /\ (forall c n ctx st, TG c -> suf (full n (p_toks st)) -> B (p_byte st) -> calm (fun r st => cgood r st /\ c_open (fst r) = c_open c) (kv_loop fuel cx c n ctx st))
  /\ (forall c n ctx st, TG c -> suf (full n (p_toks st)) -> B (p_byte st) -> calm (fun r st => cgood r st /\ c_open (fst r) = c_open c) (arguments fuel cx c n ctx st))
  /\ (forall c n ctx st, TG c -> suf (full n (p_toks st)) -> B (p_byte st) -> calm (fun r st => cgood r st /\ c_open (fst r) = c_open c) (call_target fuel cx c n ctx st)).
Lemma TG_exit sp c : TG c -> TG (call_exit sp c).
Proof. destruct c; exact (fun H => H). Qed.
Lemma TG_arg v c : TG c -> TG (call_add_argument v c).
Proof. destruct c; exact (fun H => H). Qed.
Lemma TG_param k v c : TG c -> TG (call_add_parameter k v c).
Proof. destruct c; exact (fun H => H). Qed.
Lemma open_exit sp c : c_open (call_exit sp c) = c_open c. Proof. now destruct c. Qed.
Lemma open_arg v c : c_open (call_add_argument v c) = c_open c. Proof. now destruct c. Qed.
Lemma open_param k v c : c_open (call_add_parameter k v c) = c_open c. Proof. now destruct c. Qed.
Lemma open_target t c : c_open (call_set_target t c) = c_open c. Proof. now destruct c. Qed.
Lemma open_lines n c : c_open (call_lines_end n c) = c_open c. Proof. now destruct c. Qed.
Lemma TG_lines n c : TG c -> TG (call_lines_end n c).
Proof. destruct c; exact (fun H => H). Qed.
Lemma target_set t c : c_target (call_set_target t c) = t. Proof. now destruct c. Qed.
Lemma param_start t ts k : suf (t :: ts) -> t_kind t = TParam k -> k <> KNewline -> B (t_start t).
Proof. intros Hs Ek Hk. pose proof (suf_hd _ _ Hs) as (_ & _ & Gp & _). exact (Gp k Ek Hk). Qed.
Lemma call_calm : forall fuel, call_calm_at fuel.
Proof.
  induction fuel as [|fuel IH]; [repeat split; intros; exact I|]. destruct IH as (Isub & Ival & Ikv & Ikl & Iarg & Itgt).
  split; [|split; [|split; [|split; [|split]]]].
  - intros t st Hs Ek. rewrite sub_expr_eq. cbv zeta. pose proof (suf_tl _ _ Hs) as Ht.
    assert (Bt : B (t_end t)) by (pose proof (suf_hd _ _ Hs) as (Go & _); apply Go; rewrite Ek; reflexivity).
    destruct (pnext_suf (set_byte (snd (tspan t)) st) Ht) as (H1 & H2).
    eapply calm_bind; [apply Itgt; [apply TG_new|exact H1|rewrite H2; exact Bt]|]. intros [c n] st1 Hb1 ((T1 & R1) & O1). cbn [fst snd] in *.
    eapply calm_bind; [apply Iarg; [exact T1|exact R1|exact Hb1]|]. intros [c2 n2] st2 Hb2 ((T2 & R2) & O2). cbn [fst snd] in *.
    destruct (call_is_closed c2); [|apply calm_perr; [exact Hb2|exact (full_tl _ _ R2)]].
    split; [exact Hb2|]. split; [cbn [fst]; rewrite open_lines, O2, O1; reflexivity|exact R2].
  - intros k t st Hs Ek Hb. rewrite value_eq. pose proof (suf_tl _ _ Hs) as Ht. destruct (val_action k) eqn:Ea.
    + eapply calm_bind; [apply path_parse_calm; [exact Hs|exact Ek|intros ->; discriminate|exact Hb]|].
      intros [p n] st1 Hb1 (_ & R). cbn [fst snd]. destruct p; [split; [exact Hb1|exact R]|apply calm_perr; [exact Hb1|exact (full_tl _ _ R)]].
    + eapply calm_bind; [apply Isub; [exact Hs|]|].
      * rewrite Ek. destruct k; try discriminate; reflexivity.
      * intros r st1 Hb1 (_ & R). split; [exact Hb1|exact R].
    + eapply calm_bind; [eapply json_literal_calm; eassumption|]. intros r st1 Hb1 R. destruct (pnext_suf st1 R) as (H1 & H2).
      split; [rewrite H2; exact Hb1|exact H1].
    + now apply calm_perr.
  - intros c t ctx st T Hs Hb. rewrite key_value_eq. apply calm_pslice. intros key _. pose proof (suf_tl _ _ Hs) as Ht.
    destruct (p_toks st) as [|u us] eqn:E; [apply Ikl; [exact T|cbn; rewrite E; exact Ht|exact Hb]|]. pose proof (suf_tl _ _ Ht) as Hu.
    destruct (t_kind u) eqn:Eu; try (apply calm_perr; [exact Hb|exact Hu]).
    eapply calm_bind; [apply Ival; [exact Ht|exact Eu|exact Hb]|]. intros r st1 Hb1 R.
    eapply calm_mono; [apply Ikl; [apply TG_param; exact T|exact R|exact Hb1]|]. intros r2 st2 (A1 & A2). split; [exact A1|]. rewrite A2. apply open_param.
  - intros c n ctx st T Hs Hb. rewrite kv_loop_eq. destruct n as [t|]; [|split; [exact Hb|]; repeat split; assumption]. cbn [full] in Hs. pose proof (suf_tl _ _ Hs) as Ht.
    destruct (t_kind t) as [q|q|q|q|k|q|q|q|q] eqn:Ek; try (apply calm_perr; [exact Hb|exact Ht]).
    destruct (kv_action k) eqn:Ea.
    + destruct (count_next k st (Some t) Hs Hb) as (H1 & H2); [discriminate|]. apply Ikl; assumption.
    + now apply Ikv.
    + split; [exact Hb|]. split; [split; [now apply TG_exit|exact Ht]|apply open_exit].
    + destruct ctx; [now apply calm_perr|]. destruct (pnext_suf st Ht) as (H1 & H2).
      split; [rewrite H2; exact Hb|]. split; [split; [now apply TG_exit|exact H1]|apply open_exit].
    + now apply calm_perr.
  - intros c n ctx st T Hs Hb. rewrite arguments_eq. destruct n as [t|]; [|split; [exact Hb|]; repeat split; assumption]. cbn [full] in Hs. pose proof (suf_tl _ _ Hs) as Ht.
    destruct (t_kind t) as [q|q|q|q|k|q|q|q|q] eqn:Ek; try (apply calm_perr; [exact Hb|exact Ht]).
    destruct (arg_action k) eqn:Ea.
    + destruct (count_next k st (Some t) Hs Hb) as (H1 & H2); [discriminate|]. apply Iarg; assumption.
    + now apply calm_perr.
    + split; [exact Hb|]. split; [split; [exact T|exact Ht]|reflexivity].
    + eapply calm_bind; [apply Ival; [exact Hs|exact Ek|exact Hb]|]. intros r st1 Hb1 R.
      eapply calm_mono; [apply Iarg; [apply TG_arg; exact T|exact R|exact Hb1]|]. intros r2 st2 (A1 & A2). split; [exact A1|]. rewrite A2. apply open_arg.
    + now apply Ikv.
    + destruct ctx; [now apply calm_perr|]. destruct (pnext_suf st Ht) as (H1 & H2).
      split; [rewrite H2; exact Hb|]. split; [split; [now apply TG_exit|exact H1]|apply open_exit].
    + split; [exact Hb|]. destruct ctx; (split; [split; [|exact Ht]|]); [now apply TG_exit|apply open_exit|exact T|reflexivity].
  - intros c n ctx st T Hs Hb. rewrite call_target_eq. destruct n as [t|]; [|split; [exact Hb|]; repeat split; assumption]. cbn [full] in Hs. pose proof (suf_tl _ _ Hs) as Ht.
    destruct (t_kind t) as [q|q|q|q|k|q|q|q|q] eqn:Ek; try (apply calm_perr; [exact Hb|exact Ht]).
    destruct (tgt_action k) eqn:Ea.
    + destruct (count_next k st (Some t) Hs Hb) as (H1 & H2); [discriminate|]. apply Itgt; assumption.
    + now apply calm_perr.
    + assert (Hk : k <> KNewline) by (intros ->; discriminate).
      eapply calm_bind; [apply path_parse_calm; [exact Hs|exact Ek|exact Hk|exact Hb]|].
      intros [p n] st1 Hb1 (P & R). cbn [fst snd]. split; [exact Hb1|]. split; [split; [|exact R]|]; cbn [fst].
      * destruct p as [p|]; [|exact T]. unfold TG. rewrite target_set. cbn [target_span]. rewrite (P p eq_refl). eapply param_start; eassumption.
      * destruct p; [apply open_target|reflexivity].
    + destruct ctx; [|now apply calm_perr]. assert (Eks : t_kind t = TParam KStartSub) by (rewrite Ek; destruct k; try discriminate; reflexivity).
      eapply calm_bind; [apply Isub; [exact Hs|exact Eks]|]. intros [c1 n] st1 Hb1 (O1 & R). cbn [fst snd] in *.
      split; [exact Hb1|]. split; [split; [|exact R]|apply open_target]. unfold TG. cbn [fst]. rewrite target_set. cbn [target_span]. rewrite O1.
      apply (param_start _ _ _ Hs Eks). discriminate.
    + destruct (call_has_target _ c) as [has|]; [|now left]. destruct (negb has && _); [now apply calm_perr|].
      split; [exact Hb|]. destruct ctx; (split; [split; [|exact Ht]|]); [now apply TG_exit|apply open_exit|exact T|reflexivity].
Qed.
Lemma flags_calm : forall toks c n line byte, TG c -> suf (full n toks) ->
  TG (fst (fst (flags_go c n toks line byte))) /\ suf (full (snd (fst (flags_go c n toks line byte))) (p_toks (snd (flags_go c n toks line byte))))
  /\ p_byte (snd (flags_go c n toks line byte)) = byte.
Proof.
  assert (Hp : forall c, TG c -> TG (call_set_partial true c)) by (intros c; destruct c; exact (fun H => H)).
  assert (Hc : forall c, TG c -> TG (call_set_conditional true c)) by (intros c; destruct c; exact (fun H => H)).
  induction toks as [|u us IH]; intros c n line byte T Hs; cbn [flags_go];
    (destruct n as [t|]; [|now repeat split]);
    (destruct (t_kind t) as [q|q|q|q|k|q|q|q|q]; try (now repeat split));
    (destruct k; try (now repeat split); try (apply IH; [exact T|exact (suf_tl _ _ Hs)]));
    try (split; [first [exact (Hp _ T)|exact (Hc _ T)|exact T]|split; [exact (suf_tl _ _ Hs)|reflexivity]]).
Qed.
Definition callok (c : call) (st : pst) : Prop := TG c /\ suf (p_toks st).
Lemma call_parse_calm t st : suf (t :: p_toks st) -> is_tag_open (t_kind t) = true -> calm callok (call_parse cx (tspan t) st).
Proof.
  intros Hs Ho. pose proof (suf_tl _ _ Hs) as Ht. assert (Bt : B (t_end t)) by (pose proof (suf_hd _ _ Hs) as (Go & _); now apply Go).
  unfold call_parse. cbv zeta. destruct (pnext_suf (set_byte (snd (tspan t)) st) Ht) as (H1 & H2).
  destruct (pnext (set_byte (snd (tspan t)) st)) as [n st1]. cbn [fst snd] in *.
  destruct (flags_calm (p_toks st1) (call_new (tspan t) (line_range (set_byte (snd (tspan t)) st))) n (p_line st1) (p_byte st1) (TG_new _ _) H1) as (T & R & E).
  destruct (flags_go _ n _ _ _) as [[c n2] st2]. cbn [fst snd] in *.
  assert (Hb2 : B (p_byte st2)) by (rewrite E, H2; exact Bt).
  destruct (c_partial c && c_conditional c); [apply calm_perr; [exact Hb2|exact (full_tl _ _ R)]|].
  pose proof (call_calm (call_fuel st2)) as (_ & _ & _ & _ & _ & Itgt).
  eapply calm_bind; [apply Itgt; [exact T|exact R|exact Hb2]|]. intros [c3 n3] st3 Hb3 ((T3 & R3) & _). cbn [fst snd] in *.
  pose proof (call_calm (call_fuel st3)) as (_ & _ & _ & _ & Iarg & _).
  eapply calm_bind; [apply Iarg; [exact T3|exact R3|exact Hb3]|]. intros [c4 n4] st4 Hb4 ((T4 & R4) & _). cbn [fst snd] in *.
  split; [exact Hb4|]. split; [now apply TG_lines|exact (full_tl _ _ R4)].
Qed.

(** ** Links *)
Definition left_ {A} (_ : A) (st : pst) : Prop := suf (p_toks st).
Lemma link_value_calm : forall toks l vt f line byte, suf toks -> B byte -> calm left_ (link_value cx l vt f toks line byte).
Proof.
  induction toks as [|t ts IH]; intros l vt f line byte Hs Hb; cbn [link_value]; [now split|]. pose proof (suf_tl _ _ Hs) as Ht.
  destruct (t_kind t) as [q|q|q|q|k|q|q|q|q] eqn:Ek; try (now apply calm_perr).
  pose proof (suf_hd _ _ Hs) as (_ & _ & _ & _ & _ & Gl). destruct (Gl _ Ek) as (Hk & Bt). cbv zeta.
  destruct q; try (now apply IH).
  - destruct vt; [|now apply IH]. destruct (assign_if_escaped _ _ _ _ _); [now apply IH|now left].
  - destruct (assign_if_escaped _ _ _ _ _); [now split|now left].
  - now apply calm_perr.
Qed.
Lemma link_href_calm : forall toks l f line byte, suf toks -> B byte -> calm left_ (link_href_go cx l f toks line byte).
Proof.
  induction toks as [|t ts IH]; intros l f line byte Hs Hb; cbn [link_href_go]; [now split|]. pose proof (suf_tl _ _ Hs) as Ht.
  destruct (t_kind t) as [q|q|q|q|k|q|q|q|q] eqn:Ek; try (now apply calm_perr).
  pose proof (suf_hd _ _ Hs) as (_ & _ & _ & _ & _ & Gl). destruct (Gl _ Ek) as (Hk & Bt). cbv zeta.
  destruct q; try (now apply IH); try (now split); try (now apply calm_perr);
    (destruct (if ef_any f then _ else _); [first [now apply link_value_calm|now split]|now left]).
Qed.
Lemma link_parse_calm t st : suf (t :: p_toks st) -> is_tag_open (t_kind t) = true -> calm left_ (link_parse cx (tspan t) st).
Proof.
  intros Hs Ho. pose proof (suf_tl _ _ Hs) as Ht. assert (Bt : B (t_end t)) by (pose proof (suf_hd _ _ Hs) as (Go & _); now apply Go).
  unfold link_parse. cbv zeta. eapply calm_bind; [apply link_href_calm; [exact Ht|exact Bt]|]. intros l st1 Hb1 R.
  destruct (lk_close l); [now split|now apply calm_perr].
Qed.

(** ** Bodies that run to a closing token *)
Lemma until_suf stop : forall toks sp line byte, suf toks ->
  suf (full (snd (fst (until stop sp toks line byte))) (p_toks (snd (until stop sp toks line byte)))).
Proof.
  induction toks as [|t ts IH]; intros sp line byte Hs; cbn [until]; [exact Hs|].
  destruct (stop (t_kind t)); [exact Hs|]. apply IH. exact (suf_tl _ _ Hs).
Qed.
Lemma until_stop stop : forall toks sp line byte t, snd (fst (until stop sp toks line byte)) = Some t -> stop (t_kind t) = true.
Proof.
  induction toks as [|u us IH]; intros sp line byte t H; cbn [until] in H; [discriminate|].
  destruct (stop (t_kind u)) eqn:E; [injection H as <-; exact E|]. eapply IH; exact H.
Qed.
Lemma until_none stop o : In o all -> is_body_open (t_kind o) = true -> forall toks sp line byte, suf toks -> snd (fst (until stop sp toks line byte)) = None ->
  B byte \/ toks <> [] -> B (p_byte (snd (until stop sp toks line byte))).
Proof.
  intros Hin Ho. induction toks as [|t ts IH]; intros sp line byte Hs Hn Hb; cbn [until] in *.
  - destruct Hb as [Hb|Hb]; [exact Hb|now destruct Hb].
  - destruct (stop (t_kind t)); [discriminate|]. apply IH; [exact (suf_tl _ _ Hs)|exact Hn|].
    destruct ts; [|right; discriminate]. left. destruct Hs as (pre & E). exact (Hbody _ _ _ Hin Ho E).
Qed.
Lemma text_until_calm stop o open st : In o all -> is_body_open (t_kind o) = true -> suf (p_toks st) -> B (p_byte st) \/ p_toks st <> [] ->
  let r := text_until stop open st in
  suf (p_toks (snd r)) /\ match fst r with None => B (p_byte (snd r)) | Some (_, t) => suf (t :: p_toks (snd r)) /\ stop (t_kind t) = true end.
Proof.
  intros Hin Ho Hs Hb. unfold text_until. cbv zeta.
  pose proof (until_suf stop (p_toks st) (snd open, snd open) (p_line st) (p_byte st) Hs) as H1.
  pose proof (until_stop stop (p_toks st) (snd open, snd open) (p_line st) (p_byte st)) as H2.
  pose proof (fun Hn => until_none stop o Hin Ho (p_toks st) (snd open, snd open) (p_line st) (p_byte st) Hs Hn Hb) as H3.
  destruct (until _ _ _ _ _) as [[sp n] st1]. cbn [fst snd] in *. destruct n as [c|]; cbn [fst snd full] in *; [|split; [exact H1|now apply H3]].
  split; [exact (suf_tl _ _ H1)|]. split; [exact H1|now apply H2].
Qed.
Lemma suf_mem t ts : suf (t :: ts) -> In t all.
Proof. intros (pre & ->). apply in_elt. Qed.
Lemma body_more t ts : suf (t :: ts) -> is_body_open (t_kind t) = true -> ts <> [].
Proof. intros (pre & E) Ho ->. destruct (Hlast _ _ E) as (_ & H). congruence. Qed.

(** at a place where a construct ends the parser may stand anywhere: its next act sets the byte *)
Definition quiet_ {A} (m : pres pst A) : Prop :=
  match m with POk _ st => suf (p_toks st) | PErr _ st => suf (p_toks st) | PPanic p => p = PanSlice \/ p = PanUnwrap | PFuel => True end.
Lemma calm_quiet {A} (Q : A -> pst -> Prop) m : calm Q m -> (forall a st, Q a st -> suf (p_toks st)) -> quiet_ m.
Proof. intros H HQ. destruct m; cbn in *; try exact H. apply (HQ a). apply H. Qed.
Lemma raw_body_quiet k st (mk : text_block -> node) stop t : suf (t :: p_toks st) -> is_body_open (t_kind t) = true ->
  quiet_ (let (r, st) := text_until stop (tspan t) st in match r with Some (tb, _) => POk (mk tb) st | None => perr cx k st end).
Proof.
  intros Hs Ho. pose proof (text_until_calm stop t (tspan t) st (suf_mem _ _ Hs) Ho (suf_tl _ _ Hs) (or_intror (body_more _ _ Hs Ho))) as (H1 & H2).
  destruct (text_until stop (tspan t) st) as [[[tb c]|] st1]; cbn [fst snd] in *; [exact H1|].
  apply (calm_quiet left_); [now apply calm_perr|exact (fun _ _ H => H)].
Qed.
Lemma raw_block_quiet t st : suf (t :: p_toks st) -> t_kind t = TBlock BStartRawBlock -> quiet_ (raw_block cx (tspan t) st).
Proof.
  intros Hs Ek. assert (Ho : is_body_open (t_kind t) = true) by (rewrite Ek; reflexivity). assert (Ho' : is_tag_open (t_kind t) = true) by (rewrite Ek; reflexivity).
  apply (calm_quiet left_); [|exact (fun _ _ H => H)]. unfold raw_block. cbv zeta.
  eapply calm_bind; [apply call_parse_calm; assumption|]. intros c st1 Hb1 (_ & R1).
  destruct (c_close c) as [es|]; [|now apply calm_perr]. apply calm_pslice. intros name _.
  pose proof (text_until_calm is_end_raw_block t es st1 (suf_mem _ _ Hs) Ho R1 (or_introl Hb1)) as (H1 & H2).
  destruct (text_until is_end_raw_block es st1) as [[[tb u]|] st2]; cbn [fst snd] in *; [|now apply calm_perr].
  destruct H2 as (H2 & H3). assert (Hu : is_tag_open (t_kind u) = true) by (destruct (t_kind u) as [[]| | | | | | | |]; try discriminate; reflexivity).
  eapply calm_bind; [apply call_parse_calm; [exact H2|exact Hu]|]. intros e st3 Hb3 (_ & R3).
  destruct (c_close e) as [cl|]; [|now apply calm_perr]. apply calm_pslice. intros en _.
  destruct (streq name en); [now split|now apply calm_perr_n].
Qed.
Definition fq {A} (m : pres fstate A) : Prop :=
  match m with POk _ fs => suf (frest fs) | PErr _ fs => suf (p_toks (f_p fs)) | PPanic p => p = PanSlice \/ p = PanUnwrap | PFuel => True end.
Lemma lift_fq {A} (m : pres pst A) stk : quiet_ m -> fq (lift m stk None).
Proof. destruct m; exact (fun H => H). Qed.
Lemma lift_some {A} (m : pres pst A) stk (f : A -> node) : quiet_ m -> fq (let! (n, fs) := lift m stk None in POk (Some (f n)) fs).
Proof. destruct m; exact (fun H => H). Qed.
Lemma perr_n_fq {A} k notes st stk : B (p_byte st) -> suf (p_toks st) -> fq (lift (perr_n (A := A) cx k notes st) stk None).
Proof. intros Hb Hs. apply lift_fq. apply (calm_quiet left_); [now apply calm_perr_n|exact (fun _ _ H => H)]. Qed.
Lemma scope_calm t st : suf (t :: p_toks st) -> is_tag_open (t_kind t) = true -> calm (fun b st => TG (b_call b) /\ suf (p_toks st)) (scope cx (tspan t) st).
Proof.
  intros Hs Ho. unfold scope. cbv zeta. eapply calm_bind; [apply call_parse_calm; assumption|]. intros c st1 Hb1 (T & R). split; [exact Hb1|]. split; [exact T|exact R].
Qed.
Lemma advance_fq : forall fuel,
  (forall t st stk, suf (t :: p_toks st) -> fq (advance fuel cx t (mkF st stk None)))
  /\ (forall fs, suf (frest fs) -> fq (block_loop fuel cx fs)).
Proof.
  induction fuel as [|fuel (IHa & IHb)]; [split; intros; exact I|]. split.
  - intros t st0 stk Hs0. rewrite advance_eq. cbv zeta. cbn [f_p f_stack f_next].
    set (st := if is_newline (t_kind t) then inc_line st0 else st0).
    assert (Hs : suf (t :: p_toks st)) by (subst st; destruct (is_newline _); exact Hs0). clearbody st. clear st0 Hs0. pose proof (suf_tl _ _ Hs) as Ht.
    assert (Hdef : fq (POk (@None node) (mkF st stk None))) by exact Ht.
    destruct (is_text (t_kind t)).
    { pose proof (until_suf (fun k => negb (is_text k)) (p_toks st) (tspan t) (p_line st) (p_byte st) Ht) as H. destruct (until _ _ _ _ _) as [[sp n] st1]. exact H. }
    destruct (t_kind t) as [b|q|q|q|k|q|q|q|q] eqn:Ek; try exact Hdef. destruct b; try exact Hdef.
    + apply (lift_some _ _ (fun n => n)). now apply raw_block_quiet.
    + apply (lift_some _ _ (fun n => n)). apply raw_body_quiet; [exact Hs|rewrite Ek; reflexivity].
    + apply (lift_some _ _ (fun n => n)). apply raw_body_quiet; [exact Hs|rewrite Ek; reflexivity].
    + apply (lift_some _ _ (fun n => n)). apply raw_body_quiet; [exact Hs|rewrite Ek; reflexivity].
    + apply (lift_some _ _ NStmt). apply (calm_quiet callok); [apply call_parse_calm; [exact Hs|rewrite Ek; reflexivity]|]. intros c st1 (_ & R). exact R.
    + pose proof (scope_calm t st Hs ltac:(rewrite Ek; reflexivity)) as Hc. destruct (scope cx (tspan t) st) as [b1 st1| | |]; try exact Hc. destruct Hc as (Hb1 & T1 & R1).
      cbn [lift pbind f_p]. destruct (block_name (px_src cx) b1) as [[name|]|]; [| |now left].
      * destruct (c_target (b_call b1)); [apply IHb; exact R1|]. destruct (c_partial (b_call b1)); [apply IHb; exact R1|]. apply perr_n_fq; assumption.
      * apply perr_n_fq; [exact T1|exact R1].
    + apply (lift_some _ _ NLink). apply (calm_quiet left_); [apply link_parse_calm; [exact Hs|rewrite Ek; reflexivity]|]. exact (fun _ _ H => H).
    + pose proof (scope_calm t st Hs ltac:(rewrite Ek; reflexivity)) as Hc. destruct (scope cx (tspan t) st) as [b1 st1| | |]; try exact Hc. destruct Hc as (Hb1 & T1 & R1).
      cbn [lift pbind f_p]. destruct (block_name (px_src cx) b1) as [cn|]; [|now left]. destruct stk as [|[on b] stk'].
      * apply perr_n_fq; [|exact R1]. pose proof (suf_hd _ _ Hs) as (_ & Ge & _). now apply Ge.
      * destruct cn as [cn|]; [|now apply perr_n_fq]. destruct (streq on cn); [exact R1|now apply perr_n_fq].
  - intros fs Hs. rewrite block_loop_eq.
    assert (Hf : suf (full (fst (ftoken fs)) (p_toks (f_p (snd (ftoken fs))))) /\ f_next (snd (ftoken fs)) = None).
    { unfold ftoken. destruct fs as [st stk [t|]]; cbn in *; [now split|]. destruct (pnext_suf st Hs) as (H & _). destruct (pnext st). now split. }
    destruct Hf as (H1 & H2). destruct (ftoken fs) as [[t|] fs1]; cbn [fst snd] in *; [|unfold fq, frest; rewrite H2; exact H1].
    destruct fs1 as [st stk n]. cbn in H2. subst n. pose proof (IHa t st stk H1) as Ha.
    destruct (advance fuel cx t _) as [[n|] fs2| | |]; try exact Ha. cbn [pbind]. destruct (f_stack fs2) as [|[name b] stk2]; [exact Ha|]. apply IHb. exact Ha.
Qed.
Lemma ftoken_suf fs : suf (frest fs) -> suf (full (fst (ftoken fs)) (p_toks (f_p (snd (ftoken fs))))) /\ f_next (snd (ftoken fs)) = None.
Proof. intros Hs. unfold ftoken. destruct fs as [st stk [t|]]; cbn in *; [now split|]. destruct (pnext_suf st Hs) as (H & _). destruct (pnext st). now split. Qed.
Lemma parse_loop_fq : forall fuel acc fs, suf (frest fs) -> fq (parse_loop fuel cx acc fs).
Proof.
  induction fuel as [|fuel IH]; intros acc fs Hs; [exact I|]. rewrite parse_loop_eq. destruct (ftoken_suf fs Hs) as (H1 & H2).
  destruct (ftoken fs) as [[t|] fs1]; cbn [fst snd] in *; [|unfold fq, frest; rewrite H2; exact H1].
  destruct fs1 as [st stk n]. cbn in H2. subst n. pose proof (proj1 (advance_fq (adv_fuel (mkF st stk None))) t st stk H1) as Ha.
  destruct (advance _ cx t _) as [[n|] fs2| | |]; try exact Ha. apply IH. exact Ha.
Qed.
Lemma until_mode_suf : forall toks, suf toks -> suf (full (fst (until_mode toks)) (snd (until_mode toks))).
Proof.
  induction toks as [|t ts IH]; intros Hs; cbn [until_mode]; [exact Hs|]. pose proof (suf_tl _ _ Hs) as Ht.
  destruct (t_kind t); try (now apply IH). exact Hs.
Qed.
Lemma lint_loop_fq : forall fuel errs fs, suf (frest fs) -> fq (lint_loop fuel cx errs fs).
Proof.
  induction fuel as [|fuel IH]; intros errs fs Hs; [exact I|]. rewrite lint_loop_eq. destruct (ftoken_suf fs Hs) as (H1 & H2).
  destruct (ftoken fs) as [[t|] fs1]; cbn [fst snd] in *; [|unfold fq, frest; rewrite H2; exact H1].
  destruct fs1 as [st stk n]. cbn in H2. subst n. pose proof (proj1 (advance_fq (adv_fuel (mkF st stk None))) t st stk H1) as Ha.
  destruct (advance _ cx t _) as [[n|] fs2|e fs2| |]; try exact Ha; [apply IH; exact Ha|]. apply IH.
  unfold lint_next, frest. pose proof (until_mode_suf _ Ha) as H. destruct (until_mode _) as [nx ts]. exact H.
Qed.
End Walk.

(** ** Where a report can be made, on an ASCII source *)
Lemma slice_ascii (s : str) a b : ascii s -> a <= b -> b <= length s -> exists x, slice s a b = Some x.
Proof.
  intros Ha Hab Hb. set (x := firstn a (firstn b s)). set (y := skipn a (firstn b s)). set (z := skipn b s).
  assert (E : s = x ++ y ++ z) by (subst x y z; rewrite app_assoc, firstn_skipn, firstn_skipn; reflexivity).
  assert (Lb : length (firstn b s) = b) by (apply firstn_length_le; exact Hb).
  assert (Lx : length x = a) by (subst x; apply firstn_length_le; lia).
  assert (Ly : length y = b - a) by (subst y; rewrite skipn_length; lia).
  clearbody x y z. subst s. apply Forall_app in Ha. destruct Ha as (Hx & Ha). apply Forall_app in Ha. destruct Ha as (Hy & _).
  pose proof (slice_mid x y z) as H. rewrite (ascii_blen x Hx), (ascii_blen y Hy), Lx, Ly in H. replace (a + (b - a)) with b in H by lia. now eexists; exact H.
Qed.
Lemma slice_one (s : str) n x : ascii s -> slice s n (n + 1) = Some x -> n < length s -> exists c, x = [c] /\ nth_error s n = Some c.
Proof.
  intros Ha Hs Hn. destruct (nth_error s n) as [c|] eqn:E; [|apply nth_error_None in E; lia]. exists c. split; [|reflexivity].
  apply nth_error_split in E. destruct E as (a & b & -> & <-). rewrite ascii_at in Hs by exact Ha. now injection Hs as <-.
Qed.
Lemma find_prev_some s : ascii s -> forall n, n < length s -> exists o, find_prev s n = Some o /\ (forall p, o = Some p -> 1 <= p <= n /\ nth_error s p = Some 10%N).
Proof.
  intros Ha. induction n as [|n IH]; intros Hn; [exists None; split; [reflexivity|discriminate]|]. cbn [find_prev].
  destruct (slice_ascii s (S n) (S n + 1) Ha) as (x & E); [lia|lia|]. rewrite E. destruct (slice_one _ _ _ Ha E Hn) as (c & -> & Ec).
  destruct (streq [c] [10%N]) eqn:Eq.
  - exists (Some (S n)). split; [reflexivity|]. intros p [= <-]. split; [lia|]. apply streq_eq in Eq. now injection Eq as <-.
  - destruct IH as (o & Eo & Ho); [lia|]. exists o. split; [exact Eo|]. intros p Ep. destruct (Ho p Ep). split; [lia|assumption].
Qed.
Lemma find_next_some s : ascii s -> forall f n, n + f = length s -> exists o, find_next s f n = Some o /\ (forall p, o = Some p -> n <= p <= length s).
Proof.
  intros Ha. induction f as [|f IH]; intros n Hn; [exists None; split; [reflexivity|discriminate]|]. cbn [find_next].
  destruct (slice_ascii s n (n + 1) Ha) as (x & E); [lia|lia|]. rewrite E. destruct (streq x [10%N]).
  - exists (Some n). split; [reflexivity|]. intros p [= <-]. lia.
  - destruct (IH (n + 1)) as (o & Eo & Ho); [lia|]. exists o. split; [exact Eo|]. intros p Ep. specialize (Ho p Ep). lia.
Qed.
Lemma report_at cx byte : ascii (px_src cx) -> byte < length (px_src cx) -> nth_error (px_src cx) byte <> Some 10%N \/ byte = 0 -> B cx byte.
Proof.
  intros Ha Hb Hc line notes. unfold err_info. set (s := px_src cx) in *.
  destruct (find_prev_some s Ha byte Hb) as (p & -> & Hp). rewrite (ascii_blen s Ha).
  destruct (find_next_some s Ha (length s - byte) byte) as (n & -> & Hn); [lia|]. cbv zeta.
  set (po := match p with Some o => o + 1 | None => 0 end). set (no := match n with Some o => o | None => length s end).
  assert (Hpo : po <= byte).
  { subst po. destruct p as [q|]; [|lia]. destruct (Hp q eq_refl) as (H1 & H2). destruct Hc as [Hc| ->]; [|lia].
    assert (q <> byte) by congruence. lia. }
  assert (Hno : byte <= no <= length s) by (subst no; destruct n as [q|]; [exact (Hn q eq_refl)|lia]).
  destruct (slice_ascii s po no Ha) as (x & ->); [lia|lia|].
  destruct (slice_ascii s po (po + (byte - po + 1)) Ha) as (y & ->); [lia|lia|]. discriminate.
Qed.

(** ** What the lexer guarantees *)
Fixpoint has_chr (c : chr) (r : re) : bool :=
  match r with RChr f => f c | RCat a b | RAlt a b => has_chr c a || has_chr c b | RStar a => has_chr c a | _ => false end.
Lemma lang_chr_in r w c : lang r w -> In c w -> has_chr c r = true.
Proof.
  induction 1 as [|f d H|a b s t _ IHa _ IHb|a b s _ IH|a b s _ IH|a|a s t _ IHa _ IHb]; cbn [has_chr]; intros Hin.
  - destruct Hin.
  - destruct Hin as [->|[]]. exact H.
  - apply in_app_or in Hin. apply Bool.orb_true_iff. destruct Hin; auto.
  - apply Bool.orb_true_iff; auto.
  - apply Bool.orb_true_iff; auto.
  - destruct Hin.
  - apply in_app_or in Hin. destruct Hin; auto.
Qed.
(** a newline can only occur in a newline token or inside a link *)
Definition may_nl (k : tkind) : bool := is_newline k || match k with TLink _ => true | _ => false end.
Lemma pats_nl m r k : In (r, k) (pats m) -> has_chr 10%N r = true -> may_nl k = true.
Proof.
  assert (H : forall m, forallb (fun p => implb (has_chr 10%N (fst p)) (may_nl (snd p))) (pats m) = true) by (intros []; vm_compute; reflexivity).
  intros Hin Hc. specialize (H m). rewrite forallb_forall in H. specialize (H _ Hin). cbn [fst snd] in H. now rewrite Hc in H.
Qed.
Lemma nl_pat m s : exists r k, In (r, k) (pats m) /\ pat_match r (10%N :: s) 1.
Proof.
  assert (H : exists k, In (nl, k) (pats m)) by (destruct m; eexists; cbn; repeat (first [left; reflexivity|right])).
  destruct H as (k & H). exists nl, k. split; [exact H|]. split; [cbn; lia|]. cbn [firstn]. unfold nl. constructor. reflexivity.
Qed.

Lemma token_chars src toks l1 t l2 : lex src = Some toks -> toks = l1 ++ t :: l2 ->
  exists s1 w s2, src = s1 ++ w ++ s2 /\ blen s1 = t_start t /\ t_end t = t_start t + blen w /\ w <> [] /\ (may_nl (t_kind t) = false -> ~ In 10%N w).
Proof.
  intros H E. destruct (lex_token _ _ _ _ _ H E) as (s1 & w & s2 & Es & H1 & H2 & H3). exists s1, w, s2. repeat split; try assumption.
  - intros ->. apply next_token_len in H3. cbn in H3. lia.
  - intros Hm Hin. destruct H3 as [(hi & r & lo & Ep & (_ & Hl) & _)|(Hno & _ & Hlen & _)].
    + rewrite firstn_app, Nat.sub_diag, firstn_O, app_nil_r, firstn_all in Hl.
      assert (Hp : In (r, t_kind t) (pats (kind_mode (t_kind t)))) by (rewrite Ep; apply in_elt).
      rewrite (pats_nl _ _ _ Hp (lang_chr_in _ _ _ Hl Hin)) in Hm. discriminate.
    + destruct w as [|c [|]]; try discriminate. destruct Hin as [Hin|[]]. subst c. destruct (nl_pat (kind_mode (t_kind t)) s2) as (r & k & Hr & Hp). exact (Hno _ _ _ Hr Hp).
Qed.

Lemma link_nl r : In (r, TLink LNewline) (pats MLink) -> r = nl.
Proof. intros H. cbn in H. repeat (destruct H as [H|H]; [try discriminate; injection H as <-; reflexivity|]). destruct H. Qed.
Section Source.
Variables (env : penv) (file src : str) (toks : list token).
Hypothesis Hr : reportable env src.
Hypothesis Hl : lex src = Some toks.
Let cx := mkPctx env src file.
Let Ha : ascii src := proj1 Hr.
Let Ht := proj2 Hr toks Hl.

Lemma ascii_part a w b : src = a ++ w ++ b -> blen a = length a /\ blen w = length w.
Proof. intros E. pose proof Ha as X. rewrite E in X. apply Forall_app in X. destruct X as (X1 & X2). apply Forall_app in X2. destruct X2 as (X2 & _). split; now apply ascii_blen. Qed.
Lemma token_ends t : In t toks -> may_nl (t_kind t) = false -> B cx (t_start t) /\ B cx (t_end t - 1).
Proof.
  intros Hin Hm. apply in_split in Hin. destruct Hin as (l1 & l2 & E). destruct (token_chars _ _ _ _ _ Hl E) as (a & w & b & Es & H1 & H2 & Hw & Hn). specialize (Hn Hm).
  destruct (ascii_part _ _ _ Es) as (La & Lw). rewrite La in H1. rewrite Lw in H2.
  assert (Hpos : 0 < length w) by (destruct w; [congruence|cbn; lia]).
  assert (Hall : forall n, n < length w -> B cx (t_start t + n)).
  { intros n Hlt. apply report_at; cbn [px_src cx]; [exact Ha|rewrite Es, !app_length; lia|left].
    rewrite Es, <- H1, nth_error_app2, nth_error_app1 by lia. replace (length a + n - length a) with n by lia. intros X. apply Hn. eapply nth_error_In; exact X. }
  split; [specialize (Hall 0 Hpos); now rewrite Nat.add_0_r in Hall|]. replace (t_end t - 1) with (t_start t + (length w - 1)) by lia. apply Hall. lia.
Qed.
Lemma src_last l u : toks = l ++ [u] -> t_end u = length src.
Proof.
  intros E. pose proof (lex_tiles src) as (l0 & xs & H1 & H2 & _). unfold collect in H1. rewrite Hl in H1. injection H1 as <-.
  rewrite E in H2. rewrite <- (ascii_blen src Ha). clear -H2. revert H2. generalize 0 as p. induction l as [|t l IH]; intros p H2; cbn [tiles app] in H2.
  - apply H2.
  - destruct H2 as (_ & _ & H2). exact (IH _ H2).
Qed.
Lemma src_G : Forall (G cx) toks.
Proof.
  destruct Ht as (Hopen & Hlink & Hbody & Hend & Hnum & Hpar). apply Forall_forall. intros t Hin. unfold G. repeat split.
  - intros Ho. destruct (Hopen t Hin Ho) as (c & Ec & Hc). apply report_at; cbn [px_src cx]; [exact Ha|apply nth_error_Some; congruence|left; congruence].
  - intros Ek. apply (token_ends t Hin). now rewrite Ek.
  - intros k Ek Hk. apply (token_ends t Hin). rewrite Ek. now destruct k.
  - intros Ek s Es. exact (Hnum t s Hin Ek Es).
  - apply (token_ends t Hin). destruct (t_kind t); try discriminate; cbn in H; injection H as ->; destruct q; try reflexivity; congruence.
  - apply (token_ends t Hin). destruct (t_kind t); try discriminate; cbn in H; injection H as ->; destruct q; try reflexivity; congruence.
  - intros ->. destruct (in_split _ _ Hin) as (l1 & l2 & E). destruct (lex_token _ _ _ _ _ Hl E) as (a & w & b & Es & H1 & H2 & H3).
    assert (Hs : slice src (t_start t) (t_end t) = Some w) by (rewrite <- H1, H2, <- H1, Es; apply slice_mid).
    apply (Hlink _ _ _ Hin H Hs). rewrite H in H3. destruct H3 as [(hi & r & lo & Ep & (_ & Hlg) & _)|(_ & X & _)]; [|discriminate X].
    rewrite firstn_app, Nat.sub_diag, firstn_O, app_nil_r, firstn_all in Hlg. cbn [kind_mode] in Ep.
    assert (Hin2 : In (r, TLink LNewline) (pats MLink)) by (rewrite Ep; apply in_elt). apply link_nl in Hin2. subst r.
    inversion Hlg as [|f c Hc X1 X2| | | | |]. subst. apply N.eqb_eq in Hc. subst c. now left.
  - destruct (in_split _ _ Hin) as (l1 & l2 & E). destruct (token_chars _ _ _ _ _ Hl E) as (a & w & b & Es & H1 & H2 & Hw & _).
    assert (Hs : slice src (t_start t) (t_end t) = Some w) by (rewrite H2, Es, <- H1; apply slice_mid). pose proof (Hlink _ _ _ Hin H Hs) as Hn.
    destruct (ascii_part _ _ _ Es) as (La & Lw). rewrite La in H1. rewrite Lw in H2. assert (Hpos : 0 < length w) by (destruct w; [congruence|cbn; lia]).
    apply report_at; cbn [px_src cx]; [exact Ha|rewrite Es, !app_length; lia|left].
    rewrite Es, nth_error_app2, nth_error_app1 by lia. intros X. apply Hn. eapply nth_error_In; exact X.
Qed.
Lemma src_pair l1 t u l2 : toks = l1 ++ t :: u :: l2 -> t_end t = t_start u /\ kind_mode (t_kind u) = next_mode (t_kind t).
Proof.
  intros E. pose proof Hl as H. rewrite E in H. apply lex_tokenizes in H. destruct (tokenizes_split _ _ _ _ _ H) as (s1 & s2 & _ & H1 & _).
  inversion H1 as [|? ? w rest k l Hn Hk E1 E2 E3]; subst. inversion Hk as [|? ? w' rest' k' l' Hn' Hk' E1' E2' E3']; subst. split; [reflexivity|]. exact (next_token_kind _ _ _ _ Hn').
Qed.
Lemma src_nl l1 t u l2 : toks = l1 ++ t :: u :: l2 -> t_kind t = TParam KNewline -> exists k, t_kind u = TParam k.
Proof. intros E Ek. destruct (src_pair _ _ _ _ E) as (_ & H). rewrite Ek in H. cbn in H. destruct (t_kind u); try discriminate. now eexists. Qed.
Lemma src_end l t : toks = l ++ [t] -> t_kind t <> TParam KNewline /\ is_body_open (t_kind t) = false.
Proof.
  intros E. destruct Ht as (_ & _ & Hbody & Hend & _). split; [exact (Hend _ _ E)|]. destruct (is_body_open (t_kind t)) eqn:Eb; [|reflexivity].
  assert (Hin : In t toks) by (rewrite E; apply in_elt). destruct (Hbody t Hin Eb) as (H & _). rewrite (src_last _ _ E) in H. lia.
Qed.
Lemma src_body t l u : In t toks -> is_body_open (t_kind t) = true -> toks = l ++ [u] -> B cx (t_end u - 1).
Proof.
  intros Hin Eb E. destruct Ht as (_ & _ & Hbody & _). destruct (Hbody t Hin Eb) as (H1 & H2). rewrite (src_last _ _ E).
  apply report_at; cbn [px_src cx]; [exact Ha|lia|left]. intros X. apply nth_error_split in X. destruct X as (a & b & Es & La).
  assert (b = []) by (rewrite Es, app_length in La; cbn in La; destruct b; [reflexivity|cbn in La; lia]). subst b. exact (H2 _ Es).
Qed.
Lemma parents_some c : forall l n, (n + N.of_nat (length (filter is_parent l)) <= 255)%N -> parents_go c n l <> None.
Proof.
  induction l as [|t l IH]; intros n H; cbn [parents_go]; [discriminate|]. cbn [filter] in H. unfold is_parent in H at 1.
  destruct (t_kind t) as [q|q|q|q|k|q|q|q|q]; try discriminate. destruct k; try discriminate. cbn [length] in H.
  destruct (n =? 255)%N eqn:E; [apply N.eqb_eq in E; lia|]. apply IH. lia.
Qed.
Lemma parents_wrap : forall l n, parents_go false n l <> None.
Proof.
  induction l as [|t l IH]; intros n; cbn [parents_go]; [discriminate|].
  destruct (t_kind t) as [q|q|q|q|k|q|q|q|q]; try discriminate. destruct k; try discriminate. destruct (n =? 255)%N; apply IH.
Qed.
Lemma src_parents t l : t_kind t = TParam KParentRef -> suf toks (t :: l) -> parents_go (pe_checked (px_env cx)) 1%N l <> None.
Proof.
  intros Ek (pre & E). destruct Ht as (_ & _ & _ & _ & _ & [Hc|Hp]); cbn [px_env cx]; [rewrite Hc; apply parents_wrap|]. apply parents_some.
  rewrite E, filter_app, app_length in Hp. cbn [filter] in Hp. unfold is_parent in Hp at 2. rewrite Ek in Hp. cbn [length] in Hp. lia.
Qed.
Lemma src_zero : toks <> [] -> B cx 0.
Proof.
  intros Hn. apply report_at; cbn [px_src cx]; [exact Ha| |now right]. destruct src as [|c s] eqn:E; [|cbn; lia]. exfalso. apply Hn. now injection Hl.
Qed.
Lemma src_suf fs : frest fs = toks -> suf toks (frest fs).
Proof. intros ->. now exists []. Qed.
Lemma src_parse fuel acc fs : frest fs = toks -> fq toks (parse_loop fuel cx acc fs).
Proof.
  intros E. destruct toks as [|t0 ts] eqn:Et.
  - destruct fuel as [|fuel]; [exact I|]. rewrite parse_loop_eq. destruct fs as [[tk l b] stk [n|]]; [discriminate|]. cbn in E. subst tk. now exists [].
  - rewrite <- Et in *. apply parse_loop_fq.
    + exact src_G.
    + intros. now destruct (src_pair _ _ _ _ H).
    + exact src_nl.
    + exact src_end.
    + exact src_body.
    + exact src_parents.
    + apply src_zero. rewrite Et. discriminate.
    + now apply src_suf.
Qed.
Lemma src_lint fuel acc fs : frest fs = toks -> fq toks (lint_loop fuel cx acc fs).
Proof.
  intros E. destruct toks as [|t0 ts] eqn:Et.
  - destruct fuel as [|fuel]; [exact I|]. rewrite lint_loop_eq. destruct fs as [[tk l b] stk [n|]]; [discriminate|]. cbn in E. subst tk. now exists [].
  - rewrite <- Et in *. apply lint_loop_fq.
    + exact src_G.
    + intros. now destruct (src_pair _ _ _ _ H).
    + exact src_nl.
    + exact src_end.
    + exact src_body.
    + exact src_parents.
    + apply src_zero. rewrite Et. discriminate.
    + now apply src_suf.
Qed.
End Source.
Lemma compile_reportable env o src p : reportable env src -> compile env o src <> PPanic p.
Proof.
  intros Hr E. pose proof (compile_panics _ _ _ _ E) as Hp. unfold compile in E. destruct (lex src) as [toks|] eqn:El; [|discriminate].
  pose proof (src_parse env (po_file o) src toks Hr El (S (length toks)) [] (mkF (mkPst toks (po_line o) (po_byte o)) [] None) eq_refl) as H.
  destruct (parse_loop _ _ _ _) as [ns fs|e fs|q|]; try discriminate. injection E as ->. cbn in H. destruct H as [-> | ->], Hp as [Hp|[Hp|Hp]]; discriminate Hp.
Qed.
Lemma lint_reportable env name src p : reportable env src -> lint env name src <> PPanic p.
Proof.
  intros Hr E. pose proof (lint_panics _ _ _ _ E) as Hp. unfold lint in E. destruct (lex src) as [toks|] eqn:El; [|discriminate].
  pose proof (src_lint env name src toks Hr El (S (length toks)) [] (mkF (mkPst toks 0 0) [] None) eq_refl) as H.
  destruct (lint_loop _ _ _ _) as [ns fs|e fs|q|]; try discriminate. injection E as ->. cbn in H. destruct H as [-> | ->], Hp as [Hp|[Hp|Hp]]; discriminate Hp.
Qed.

(** ** A check that decides enough *)
Definition reportable_b (env : penv) (src : str) : bool :=
  forallb (fun c => c <? 128)%N src &&
  match lex src with
  | None => true
  | Some toks =>
      let ends_nl := match rev src with c :: _ => (c =? 10)%N | [] => false end in
      let text t := match slice src (t_start t) (t_end t) with Some w => w | None => [] end in
      forallb (fun t => implb (is_tag_open (t_kind t)) (match nth_error src (t_end t) with Some c => negb (c =? 10)%N | None => false end)) toks
      && forallb (fun t => match t_kind t with TLink _ => negb (existsb (N.eqb 10) (text t)) | _ => true end) toks
      && forallb (fun t => implb (is_body_open (t_kind t)) ((t_end t <? length src) && negb ends_nl)) toks
      && match rev toks with t :: _ => match t_kind t with TParam KNewline => false | _ => true end | [] => true end
      && forallb (fun t => match t_kind t with TParam KNumber => match parse_number (pe_num env) (text t) with Some _ => true | None => false end | _ => true end) toks
      && (negb (pe_checked env) || (length (filter is_parent toks) <=? 255))
  end.
Lemma reportable_check env src : reportable_b env src = true -> reportable env src.
Proof.
  unfold reportable_b. intros H. apply andb_prop in H. destruct H as (Ha & H). rewrite forallb_forall in Ha. split.
  { apply Forall_forall. intros c Hc. apply N.ltb_lt. now apply Ha. }
  intros toks E. rewrite E in H. cbv zeta in H. apply andb_prop in H. destruct H as (H & H6). apply andb_prop in H. destruct H as (H & H5).
  apply andb_prop in H. destruct H as (H & H4). apply andb_prop in H. destruct H as (H & H3). apply andb_prop in H. destruct H as (H1 & H2).
  rewrite forallb_forall in H1, H2, H3, H5. repeat split.
  - intros t Hin Ho. specialize (H1 t Hin). rewrite Ho in H1. cbn in H1. destruct (nth_error src (t_end t)) as [c|]; [|discriminate]. exists c. split; [reflexivity|].
    intros ->. discriminate.
  - intros t k w Hin Ek Es Hn. specialize (H2 t Hin). rewrite Ek, Es in H2. apply Bool.negb_true_iff in H2.
    assert (X : existsb (N.eqb 10) w = true) by (apply existsb_exists; exists 10%N; split; [exact Hn|reflexivity]). unfold chr in *. congruence.
  - specialize (H3 t H). rewrite H0 in H3. cbn in H3. apply andb_prop in H3. destruct H3 as (H3 & _). now apply Nat.ltb_lt.
  - intros s ->. specialize (H3 t H). rewrite H0 in H3. cbn in H3. apply andb_prop in H3. destruct H3 as (_ & H3). rewrite rev_app_distr in H3. discriminate.
  - intros l t -> Ek. rewrite rev_app_distr in H4. cbn in H4. now rewrite Ek in H4.
  - intros t s Hin Ek Es. specialize (H5 t Hin). rewrite Ek, Es in H5. destruct (parse_number _ s); [discriminate|discriminate H5].
  - apply Bool.orb_prop in H6. destruct H6 as [H6|H6]; [left; now apply Bool.negb_true_iff|right; now apply Nat.leb_le].
Qed.
