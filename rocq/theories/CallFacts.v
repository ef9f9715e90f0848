(** * CallFacts: paths, literals, calls (src/parser/{string,path,call}.rs): total, consume tokens in order,
    count lines, produce valid spans. *)
From Coq Require Import Lia String.
From Verif Require Import Str Lexer Json Ast ErrInfo Parser Spec_Lexer Spec_Ast StrFacts LexerFacts ParserFacts.
Open Scope nat_scope. Open Scope list_scope.

Lemma steps_pos src l n l' n' : steps l n l' n' -> good src l -> pos src l <= pos src l'.
Proof. intros H Hg. eapply steps_good; eassumption. Qed.

(** ** Strings *)
Lemma lit_token_some ty k q : lit_token ty k = Some q -> k = TDouble q \/ k = TSingle q \/ k = TArray q.
Proof. destruct ty, k; simpl; intros H; try discriminate; injection H as <-; auto. Qed.
Lemma quote_newline k q : k = TDouble q \/ k = TSingle q \/ k = TArray q ->
  is_newline k = match q with QNewline => true | _ => false end.
Proof. intros [->|[->| ->]]; destruct q; reflexivity. Qed.
Lemma quote_ok src t q : t_kind t = TDouble q \/ t_kind t = TSingle q \/ t_kind t = TArray q -> tok_ok src t ->
  match q with QText | QError | QNewline => True | _ => bnd src (t_start t + 1) end.
Proof. intros H (_ & _ & _ & Hk). destruct H as [->|[->| ->]] in Hk; exact Hk. Qed.

Lemma string_go_post cx ty start : forall toks stop nl dl line byte,
  good (px_src cx) toks -> bnd (px_src cx) start -> bnd (px_src cx) stop -> start <= stop ->
  (stop = pos (px_src cx) toks \/ bnd (px_src cx) (stop + 1) /\ stop + 1 <= pos (px_src cx) toks) ->
  ppost (fun r st' => fst (fst r) = start /\ valid_span (px_src cx) (fst r)
                      /\ bnd (px_src cx) (snd (fst r) + 1) /\ snd (fst r) + 1 <= pos (px_src cx) (p_toks st')
                      /\ steps toks line (p_toks st') (p_line st'))
        (esuf toks) (string_go cx ty start stop nl dl toks line byte).
Proof.
  set (src := px_src cx).
  induction toks as [|t toks IH]; intros stop nl dl line byte Hg Hs He Hle Hst; cbn [string_go].
  - apply ppost_perr, esuf_refl.
  - apply good_cons in Hg. destruct Hg as (Ht & Hg & Hp). simpl pos in Hst.
    destruct (lit_token ty (t_kind t)) as [q|] eqn:Eq; [|apply ppost_perr, esuf_cons, esuf_refl].
    apply lit_token_some in Eq. pose proof (quote_newline _ _ Eq) as Hnl. pose proof (quote_ok _ _ _ Eq Ht) as Hq.
    assert (Hlt : t_start t < t_end t) by apply Ht.
    assert (Hrec : forall stop' nl' dl' byte', bnd src stop' -> start <= stop' ->
       (stop' = pos src toks \/ bnd src (stop' + 1) /\ stop' + 1 <= pos src toks) ->
       is_newline (t_kind t) = false ->
       ppost (fun r st' => fst (fst r) = start /\ valid_span src (fst r)
                      /\ bnd src (snd (fst r) + 1) /\ snd (fst r) + 1 <= pos src (p_toks st')
                      /\ steps (t :: toks) line (p_toks st') (p_line st'))
        (esuf (t :: toks)) (string_go cx ty start stop' nl' dl' toks line byte')).
    { intros stop' nl' dl' byte' Hb' Hle' Hst' Hn. eapply ppost_mono; [apply IH; assumption | | intros s; apply esuf_cons].
      intros r st' (H1 & H2 & H3 & H4 & H5). repeat split; try assumption; try apply H2. apply steps_cons0; assumption. }
    assert (Hstay : bnd src (t_start t + 1) -> stop = pos src toks \/ bnd src (stop + 1) /\ stop + 1 <= pos src toks).
    { intros Hb. right. destruct Hst as [->|[H1 H2]]; (split; [assumption | rewrite Hp; lia]). }
    assert (Htext : start <= t_end t).
    { destruct Hst as [->|[H1 H2]]; lia. }
    destruct q.
    + apply Hrec; try apply Ht; try assumption. left. symmetry. exact Hp.
    + apply Hrec; try assumption. apply Hstay, Hq.
    + apply Hrec; try assumption. apply Hstay, Hq.
    + destruct (Hstay Hq) as [->|[H1 H2]].
      * exfalso. rewrite Hp in Hst. destruct Hst as [Hst|[_ Hst]]; lia.
      * simpl. repeat split; simpl; try assumption.
        apply steps_cons0; [exact Hnl | apply steps_refl].
    + apply ppost_perr, esuf_cons, esuf_refl.
    + apply Hrec; try apply Ht; try assumption. left. symmetry. exact Hp.
Qed.

Lemma string_parse_post cx ty cur st :
  good (px_src cx) (p_toks st) -> snd cur = pos (px_src cx) (p_toks st) ->
  ppost (fun r st' => fst (fst r) = snd cur /\ valid_span (px_src cx) (fst r)
                      /\ bnd (px_src cx) (snd (fst r) + 1) /\ snd (fst r) + 1 <= pos (px_src cx) (p_toks st')
                      /\ steps (p_toks st) (p_line st) (p_toks st') (p_line st'))
        (esuf (p_toks st)) (string_parse cx ty cur st).
Proof.
  intros Hg Hc. unfold string_parse. pose proof (good_pos_bnd _ _ Hg) as Hb. rewrite Hc.
  apply string_go_post; try assumption; [lia | left; reflexivity].
Qed.

(** ** Paths *)
Definition pathinv (src : str) (lo hi : nat) (p : path) : Prop :=
  lo <= fst (pa_span p) /\ path_ok src lo hi p.
Lemma pathinv_mono src lo hi hi' p : hi <= hi' -> pathinv src lo hi p -> pathinv src lo hi' p.
Proof. intros H [H1 H2]. split; [exact H1|]. eapply sps_mono; [|exact H|exact H2]. lia. Qed.

Lemma pathinv_set_end src lo hi p t :
  pathinv src lo hi p -> tok_ok src t -> hi <= t_start t -> pathinv src lo (t_end t) (path_set_end (t_end t) p).
Proof.
  intros [H1 H2] (T1 & T2 & T3 & _) Hle. unfold path_ok, path_spans, sps in *. apply Forall_cons_iff in H2.
  destruct H2 as [((V1 & V2 & V3) & _ & U) H2]. split; [exact H1|]. constructor.
  - simpl. repeat split; simpl; try assumption; [lia | left; exact H1 | lia].
  - eapply sps_mono; [| |exact H2]; lia.
Qed.
Lemma pathinv_add src lo hi p c : pathinv src lo hi p -> sp_in src lo hi (cm_span c) -> pathinv src lo hi (path_add c p).
Proof.
  intros [H1 H2] Hc. split; [exact H1|]. unfold path_ok, path_spans, sps in *. simpl. rewrite map_app.
  apply Forall_cons_iff in H2. destruct H2 as [H2 H3]. constructor; [exact H2|].
  apply Forall_app. split; [exact H3|]. constructor; [exact Hc | constructor].
Qed.

Lemma to_component_post cx k sp raw st (lo hi : nat) :
  valid_span (px_src cx) sp ->
  ppost (fun c st' => st' = st /\ cm_span c = sp /\ comp_kind_of k = Some (cm_kind c)) (fun st' => st' = st)
    (to_component cx k sp raw st).
Proof.
  intros (V1 & V2 & V3). unfold to_component.
  assert (Hmk : forall v, ppost (fun c st' => st' = st /\ cm_span c = sp /\ comp_kind_of k = Some (cm_kind c)) (fun st' => st' = st)
     match comp_kind_of k with Some kind => POk (mkComp kind sp v) st | None => perr cx SComponentType st end).
  { intros v. destruct (comp_kind_of k); [simpl; auto | apply ppost_perr; reflexivity]. }
  destruct raw as [r|]; [|apply Hmk]. destruct (has_escapes r); [|apply Hmk].
  destruct (slice_some (px_src cx) _ _ V1 V2 V3) as (v & Hv). unfold pslice, sl. rewrite Hv. apply Hmk.
Qed.

Lemma pnext_full st : full (fst (pnext st)) (p_toks (snd (pnext st))) = p_toks st
  /\ p_line (snd (pnext st)) = p_line st /\ p_byte (snd (pnext st)) = p_byte st.
Proof. destruct st as [[|t ts] line byte]; simpl; auto. Qed.


(** one unfolding of [components] *)
Definition comp_tail (cx : pctx) (rec : path -> bool -> pst -> pres pst (path * option token))
    (p : path) (wants : bool) (k : tparam) (t : token) (st : pst) : pres pst (path * option token) :=
  pbind match lit_of_param k with
        | Some ty => pbind (string_parse cx ty (tspan t) st) (fun r st => POk (fst r, Some (snd r)) st)
        | None => POk (tspan t, None) st
        end
        (fun r st =>
           let '(sp, raw) := r in
           match k with
           | KPathDelim =>
               if wants then rec p false st
               else perr cx SUnexpectedPathDelimiter (set_byte (fst sp) st)
           | _ =>
               if wants then perr cx SExpectedPathDelimiter (set_byte (fst sp) st)
               else pbind (to_component cx k sp raw st) (fun c st => rec (path_add c p) true st)
           end).
Inductive comp_act := CaStop | CaErr (e : serr) | CaTail.
Definition comp_action (k : tparam) : comp_act :=
  match k with
  | KThis | KThisDotSlash => CaErr SUnexpectedPathExplicitThis
  | KParentRef => CaErr SUnexpectedPathParent
  | KLocalIdent => CaErr SUnexpectedPathLocal
  | KIdent | KPathDelim | KDoubleQuote | KSingleQuote | KStartArray => CaTail
  | _ => CaStop
  end.
Lemma components_eq fuel cx p wants st :
  components (S fuel) cx p wants st =
  match p_toks st with
  | [] => POk (p, None) st
  | t :: ts =>
      let st := mkPst ts (p_line st) (p_byte st) in
      if is_newline (t_kind t) then
        POk (p, fst (pnext (inc_line st))) (snd (pnext (inc_line st)))
      else
        match t_kind t with
        | TParam k =>
            let st := set_byte (t_start t) st in
            match comp_action k with
            | CaStop => POk (p, Some t) st
            | CaErr e => perr cx e st
            | CaTail => comp_tail cx (components fuel cx) (path_set_end (t_end t) p) wants k t st
            end
        | _ => POk (p, Some t) st
        end
  end.
Proof.
  destruct st as [[|t ts] line byte]; [reflexivity|].
  destruct t as [k a b].
  destruct k as [q|q|q|q|k|q|q|q|q]; [.. |destruct q|destruct q|destruct q|destruct q];
    [destruct q|destruct q|destruct q|destruct q|..]; try reflexivity;
    try (destruct ts; reflexivity).
  destruct k; try reflexivity. destruct ts; reflexivity.
Qed.

Lemma comp_tail_post cx rec lo p wants k t toks line fuel :
  let src := px_src cx in
  good src (t :: toks) -> length (t :: toks) < S fuel -> is_newline (t_kind t) = false ->
  pathinv src lo (t_end t) p -> lo <= t_start t ->
  (forall p' w st', length (p_toks st') < fuel -> good src (p_toks st') ->
     pathinv src lo (pos src (p_toks st')) p' ->
     ppost (fun r st2 => steps (p_toks st') (p_line st') (full (snd r) (p_toks st2)) (p_line st2)
                      /\ pathinv src lo (pos src (full (snd r) (p_toks st2))) (fst r)
                      /\ (exists more, pa_comps (fst r) = pa_comps p' ++ more))
        (esuf (p_toks st')) (rec p' w st')) ->
  ppost (fun r st2 => steps (t :: toks) line (full (snd r) (p_toks st2)) (p_line st2)
                      /\ pathinv src lo (pos src (full (snd r) (p_toks st2))) (fst r)
                      /\ (exists more, pa_comps (fst r) = pa_comps p ++ more))
        (esuf (t :: toks)) (comp_tail cx rec p wants k t (mkPst toks line (t_start t))).
Proof.
  intros src Hg0 Hf En Hp Hlo IH. unfold comp_tail.
  apply good_cons in Hg0. destruct Hg0 as (Ht & Hg & Hpos).
  eapply ppost_bind with (Q1 := fun (r : span * option raw_literal) st' => steps (t :: toks) line (p_toks st') (p_line st')
       /\ sp_in src lo (pos src (p_toks st')) (fst r) /\ length (p_toks st') < fuel /\ t_end t <= pos src (p_toks st')
       /\ good src (p_toks st')).
  - destruct (lit_of_param k) as [ty|].
    + eapply ppost_bind; [eapply ppost_mono; [apply (string_parse_post cx ty (tspan t) (mkPst toks line (t_start t))); [exact Hg | symmetry; exact Hpos] | | ]|].
      * intros r st' H. exact H.
      * intros s. apply esuf_cons.
      * intros r st' (H1 & H2 & H3 & H4 & H5). cbn [ppost fst snd]. cbn [p_toks p_line tspan fst snd] in H1, H5.
        pose proof (steps_good _ _ _ _ _ H5 Hg) as [Hg' Hpo].
        split; [apply steps_cons0; assumption|]. split; [|split; [|split]].
        -- split; [exact H2|].
           split; [left; apply Nat.le_trans with (t_end t);
                   [destruct Ht as (_ & _ & Ht & _); lia | apply Nat.eq_le_incl; symmetry; exact H1]
                  | eapply Nat.le_trans; [apply Nat.le_add_r | exact H4]].
        -- apply steps_len in H5. simpl in Hf. lia.
        -- fold src in Hpo. lia.
        -- exact Hg'.
    + cbn [ppost fst snd p_toks p_line]. split; [apply steps_cons0; [exact En | apply steps_refl]|].
      split; [apply sp_in_tok; [exact Ht | exact Hlo | fold src; lia]|]. simpl in Hf. split; [lia|]. split; [fold src; lia | exact Hg].
  - intros [sp raw] st' (H1 & H2 & H3 & H4 & H5). cbn [fst] in H2.
    assert (Herr : forall b, esuf (t :: toks) (set_byte b st')).
    { intros b. eapply steps_esuf; [exact H1|]. exists []. reflexivity. }
    assert (Hpe' : pathinv src lo (pos src (p_toks st')) p) by (eapply pathinv_mono; eassumption).
    assert (Hcomp : ppost (fun r st2 => steps (t :: toks) line (full (snd r) (p_toks st2)) (p_line st2)
                  /\ pathinv src lo (pos src (full (snd r) (p_toks st2))) (fst r)
                  /\ (exists more, pa_comps (fst r) = pa_comps p ++ more))
         (esuf (t :: toks))
         (if wants then perr cx SExpectedPathDelimiter (set_byte (fst sp) st')
          else pbind (to_component cx k sp raw st') (fun c st => rec (path_add c p) true st))).
    { destruct wants; [apply ppost_perr, Herr|].
      eapply ppost_bind; [eapply ppost_mono; [apply (to_component_post cx k sp raw st' lo lo), H2 | |]|].
      - intros c s Hc. exact Hc.
      - intros s ->. eapply steps_esuf; [exact H1|]. exists []. reflexivity.
      - intros c s (-> & Hcs & _). eapply ppost_mono; [apply IH; [exact H3 | exact H5|]| |].
        + apply pathinv_add; [exact Hpe' | rewrite Hcs; exact H2].
        + intros r st2 (R1 & R2 & more & R3). split; [eapply steps_trans; eassumption|]. split; [exact R2|].
          exists (c :: more). rewrite R3. simpl. rewrite <- app_assoc. reflexivity.
        + intros s Hs. eapply steps_esuf; eassumption. }
    destruct k; try exact Hcomp.
    destruct wants; [|apply ppost_perr, Herr].
    eapply ppost_mono; [apply IH; assumption | |].
    + intros r st2 (R1 & R2 & R3). split; [eapply steps_trans; eassumption|]. split; assumption.
    + intros s Hs. eapply steps_esuf; eassumption.
Qed.

Lemma components_post cx lo : forall fuel p wants st,
  length (p_toks st) < fuel -> good (px_src cx) (p_toks st) ->
  pathinv (px_src cx) lo (pos (px_src cx) (p_toks st)) p ->
  ppost (fun r st' => steps (p_toks st) (p_line st) (full (snd r) (p_toks st')) (p_line st')
                      /\ pathinv (px_src cx) lo (pos (px_src cx) (full (snd r) (p_toks st'))) (fst r)
                      /\ (exists more, pa_comps (fst r) = pa_comps p ++ more))
        (esuf (p_toks st)) (components fuel cx p wants st).
Proof.
  induction fuel as [|fuel IH]; intros p wants st Hf Hg Hp; [lia|].
  rewrite components_eq.
  destruct st as [toks line byte]. cbn [p_toks p_line p_byte] in *.
  destruct toks as [|t toks].
  - cbn [ppost fst snd full]. split; [apply steps_refl|]. split; [exact Hp|]. exists []. rewrite app_nil_r. reflexivity.
  - pose proof Hg as Hg0. apply good_cons in Hg. destruct Hg as (Ht & Hg & Hpos).
    assert (Hlt : t_start t < t_end t) by apply Ht.
    assert (Hkeep : forall st', p_toks st' = toks -> p_line st' = line ->
       ppost (fun r st' => steps (t :: toks) line (full (snd r) (p_toks st')) (p_line st')
                      /\ pathinv (px_src cx) lo (pos (px_src cx) (full (snd r) (p_toks st'))) (fst r)
                      /\ (exists more, pa_comps (fst r) = pa_comps p ++ more))
        (esuf (t :: toks)) (POk (p, Some t) st')).
    { intros st' E1 E2. cbn [ppost fst snd]. rewrite E1, E2. cbn [full]. split; [apply steps_refl|]. split; [exact Hp|].
      exists []. rewrite app_nil_r. reflexivity. }
    cbv zeta. destruct (is_newline (t_kind t)) eqn:En.
    { cbn [ppost]. destruct (pnext_full (inc_line (mkPst toks line byte))) as (E1 & E2 & _).
      cbn [fst snd]. rewrite E1, E2. cbn [inc_line p_toks p_line].
      split; [apply steps_cons1; [exact En | apply steps_refl]|]. split.
      - eapply pathinv_mono; [|exact Hp]. cbn [pos]. lia.
      - exists []. rewrite app_nil_r. reflexivity. }
    destruct (t_kind t) as [b|q|q|q|k|q|q|q|q] eqn:Ek; try (apply Hkeep; reflexivity).
    destruct (comp_action k).
    + apply Hkeep; reflexivity.
    + apply ppost_perr, esuf_cons, esuf_refl.
    + pose proof (pathinv_set_end _ lo _ p t Hp Ht (Nat.le_refl _)) as Hpe.
      eapply ppost_mono; [apply (comp_tail_post cx (components fuel cx) lo _ wants k t toks line fuel Hg0 Hf) | |].
      * rewrite Ek. exact En.
      * exact Hpe.
      * destruct Hp as [Hp1 Hp2]. inversion Hp2 as [|? ? ((V1 & V2 & V3) & _ & U) _]; subst. cbn [pos] in U. lia.
      * intros p' w st' H1 H2 H3. apply IH; assumption.
      * intros r st2 (R1 & R2 & R3). repeat split; try assumption. apply R2. apply R2.
      * intros s Hs. exact Hs.
Qed.

(** consumption that may skip newlines without counting them *)
Definition stepsW (l : list token) (n : nat) (l' : list token) (n' : nat) : Prop :=
  exists sk l1, l = sk ++ l1 /\ Forall (fun x => skipt x = true) sk /\ steps l1 n l' n'.
Lemma steps_W l n l' n' : steps l n l' n' -> stepsW l n l' n'.
Proof. intros H. exists [], l. split; [reflexivity|]. split; [constructor | exact H]. Qed.
Lemma stepsW_cons t l n l' n' : skipt t = true -> stepsW l n l' n' -> stepsW (t :: l) n l' n'.
Proof. intros Ht (sk & l1 & -> & H1 & H2). exists (t :: sk), l1. split; [reflexivity|]. split; [constructor; assumption | exact H2]. Qed.
Lemma stepsW_suffix l n l' n' : stepsW l n l' n' -> exists pre, l = pre ++ l'.
Proof. intros (sk & l1 & -> & _ & pre & -> & _). exists (sk ++ pre). rewrite app_assoc. reflexivity. Qed.
Lemma nlc_zero l : (forall u, In u l -> nl1 u = 0) -> nlc l = 0.
Proof. induction l as [|t l IH]; intros H; simpl; [reflexivity|]. rewrite (H t (or_introl eq_refl)), IH; [reflexivity|]. intros u Hu. apply H. right. exact Hu. Qed.
Lemma stepsW_steps t pr l n l' n' : noskip t = false -> is_newline (t_kind t) = false ->
  Forall (fun u => t_kind u = TParam KParentRef) pr ->
  stepsW l n l' n' -> steps (t :: pr ++ l) n l' n'.
Proof.
  intros Hs Hn Hp (sk & l1 & -> & H1 & pre & -> & H2 & H3). exists (t :: pr ++ sk ++ pre).
  simpl. unfold nl1 at 1 2. rewrite Hn, !nlc_app. split; [rewrite <- !app_assoc; reflexivity|]. split; [lia|].
  intros C.
  assert (Hpr : nlc pr = 0).
  { apply nlc_zero. intros u Hu. rewrite Forall_forall in Hp. unfold nl1. rewrite (Hp u Hu). reflexivity. }
  assert (Hsk : nlc sk = 0).
  { apply nlc_zero. intros u Hu. unfold nl1. destruct (is_newline (t_kind u)) eqn:E; [exfalso|reflexivity].
    apply in_split in Hu. destruct Hu as (x & y & ->). apply Forall_app in H1. destruct H1 as [Hx Hy].
    inversion Hy as [|? ? Hu _]; subst. assert (Ek : t_kind u = TParam KNewline).
    { unfold skipt in Hu. destruct (t_kind u) as [b|q|q|q|k|q|q|q|q]; try discriminate. destruct k; try discriminate E. reflexivity. }
    apply C. destruct pr as [|v pr] using rev_ind.
    - exists [], t, x, u, (y ++ pre). simpl. rewrite <- app_assoc. repeat split; assumption.
    - exists (t :: pr), v, x, u, (y ++ pre). simpl. rewrite <- !app_assoc. simpl. split; [reflexivity|].
      apply Forall_app in Hp. destruct Hp as [_ Hp]. inversion Hp as [|? ? Hv _]; subst.
      unfold noskip. rewrite Hv. repeat split; assumption. }
  rewrite Hpr, Hsk. apply (clean_app [t]) in C. destruct C as [_ C]. apply clean_app in C. destruct C as [_ C].
  apply clean_app in C. destruct C as [_ C]. rewrite (H3 C). lia.
Qed.

(** a simple path is the first identifier of the tokens consumed for it *)
Definition named (l l' : list token) (p : path) : Prop :=
  path_is_simple p = true ->
  exists mid t rest comp, l = mid ++ t :: rest ++ l' /\ Forall (fun u => t_kind u <> TParam KIdent) mid
    /\ t_kind t = TParam KIdent /\ pa_comps p = [comp] /\ cm_span comp = tspan t.
Lemma named_cons t l l' p : t_kind t <> TParam KIdent -> named l l' p -> named (t :: l) l' p.
Proof.
  intros Ht H Hs. destruct (H Hs) as (mid & u & rest & c & -> & H1 & H2). exists (t :: mid), u, rest, c.
  split; [reflexivity|]. split; [constructor; assumption | exact H2].
Qed.
Lemma named_app a l l' p : Forall (fun u => t_kind u <> TParam KIdent) a -> named l l' p -> named (a ++ l) l' p.
Proof. intros H Hn. induction H as [|t a Ht Ha IH]; simpl; [exact Hn | apply named_cons; assumption]. Qed.
Lemma named_weaken l l1 l2 p : named l l1 p -> (exists pre, l1 = pre ++ l2) -> named l l2 p.
Proof.
  intros H (pre & ->) Hs. destruct (H Hs) as (mid & u & rest & c & -> & H1 & H2). exists mid, u, (rest ++ pre), c.
  rewrite <- app_assoc. split; [reflexivity|]. split; assumption.
Qed.

Definition path_first (cx : pctx) (p : path) (k : tparam) (t : token) (toks : list token) (line : nat)
  : pres pst (option path * option token) :=
  let st := mkPst toks line (t_start t) in
  let p := path_set_end (t_end t) p in
  let! (c, st) := to_component cx k (tspan t) None st in
  match comp_is_root (px_src cx) c with
  | None => PPanic PanSlice
  | Some root =>
      let p := if path_is_empty p && root then path_set_root true p else p in
      let p := if comp_is_explicit c then path_set_explicit true p else p in
      if comp_is_local c && (0 <? pa_parents p)%N then perr cx SUnexpectedPathParentWithLocal st
      else if comp_is_explicit c && (0 <? pa_parents p)%N then
             perr cx SUnexpectedPathParentWithExplicit st
      else
        let wants := negb (comp_is_dot_slash c) in
        let! (r, st) := components (S (length toks)) cx (path_add c p) wants st in
        let '(p, next) := r in
        if path_is_empty p then perr cx SEmptyPath st
        else POk (Some p, next) st
  end.
Lemma path_loop_eq cx p next toks line byte :
  path_loop cx p next toks line byte =
  match next with
  | None => POk (None, None) (mkPst toks line byte)
  | Some t =>
      match t_kind t with
      | TParam k =>
          if is_path_component k then path_first cx p k t toks line
          else match toks with
               | [] => POk (None, None) (mkPst [] line (t_start t))
               | t' :: ts => path_loop cx p (Some t') ts line (t_start t)
               end
      | _ => perr cx STokenParameterPath (mkPst toks line byte)
      end
  end.
Proof. destruct toks; reflexivity. Qed.

Definition path_res (src : str) (lo : nat) (l : list token) (r : option path * option token) (st' : pst) : Prop :=
  match fst r with
  | Some p => pathinv src lo (pos src (full (snd r) (p_toks st'))) p
              /\ named l (full (snd r) (p_toks st')) p /\ path_is_empty p = false
              /\ length (full (snd r) (p_toks st')) < length l
  | None => True
  end.

Lemma pathinv_flags src lo hi p (b : bool) : pathinv src lo hi p ->
  pathinv src lo hi (path_set_root b p) /\ pathinv src lo hi (path_set_explicit b p).
Proof. intros H. split; exact H. Qed.

Lemma is_path_newline k : is_path_component k = true -> is_newline (TParam k) = false.
Proof. destruct k; simpl; congruence. Qed.

Lemma path_first_post cx lo p k t toks line :
  let src := px_src cx in
  good src (t :: toks) -> t_kind t = TParam k -> is_path_component k = true ->
  pa_comps p = [] -> lo <= fst (pa_span p) -> bnd src (fst (pa_span p)) -> fst (pa_span p) <= t_start t ->
  ppost (fun r st' => steps (t :: toks) line (full (snd r) (p_toks st')) (p_line st')
                      /\ path_res src lo (t :: toks) r st')
        (esuf (t :: toks)) (path_first cx p k t toks line).
Proof.
  intros src Hg Ek Hk Hc Hlo Hb Hle. apply good_cons in Hg. destruct Hg as (Ht & Hg & Hpos).
  assert (Hn : is_newline (t_kind t) = false) by (rewrite Ek; apply is_path_newline, Hk).
  assert (Hlt : t_start t < t_end t) by apply Ht.
  unfold path_first. cbv zeta.
  assert (Hsp : sp_in src lo (t_end t) (tspan t)) by (apply sp_in_tok; [exact Ht | lia | lia]).
  eapply ppost_bind; [eapply ppost_mono; [apply (to_component_post cx k (tspan t) None _ 0 0), Hsp | |]|].
  - intros c s H. exact H.
  - intros s ->. apply esuf_cons, esuf_refl.
  - intros c s (-> & Hcs & Hck). unfold comp_is_root, comp_str. rewrite Hcs.
    destruct (sp_in_slice _ _ _ _ Hsp) as (v & Hv). fold src. rewrite Hv.
    set (p1 := path_set_end (t_end t) p).
    assert (Hp1 : pathinv src lo (t_end t) p1).
    { split; [exact Hlo|]. unfold path_ok, path_spans, p1. simpl. rewrite Hc. simpl. constructor; [|constructor].
      repeat split; simpl; try assumption; try apply Ht; try lia. }
    set (p2 := if path_is_empty p1 && streq v (lit "@root") then path_set_root true p1 else p1).
    assert (Hp2 : pathinv src lo (t_end t) p2 /\ pa_comps p2 = []).
    { unfold p2. destruct (path_is_empty p1 && streq v (lit "@root")); (split; [exact Hp1 | exact Hc]). }
    clearbody p2. clear Hp1 p1.
    set (p3 := if comp_is_explicit c then path_set_explicit true p2 else p2).
    assert (Hp3 : pathinv src lo (t_end t) p3 /\ pa_comps p3 = []).
    { unfold p3. destruct (comp_is_explicit c); exact Hp2. }
    clearbody p3. clear Hp2 p2.
    destruct (comp_is_local c && (0 <? pa_parents p3)%N); [apply ppost_perr, esuf_cons, esuf_refl|].
    destruct (comp_is_explicit c && (0 <? pa_parents p3)%N); [apply ppost_perr, esuf_cons, esuf_refl|].
    destruct Hp3 as [Hp3 Hc3].
    eapply ppost_bind; [eapply ppost_mono; [apply (components_post cx lo) | |]|].
    + cbn [p_toks]. lia.
    + exact Hg.
    + cbn [p_toks]. fold src. rewrite Hpos. apply pathinv_add; [exact Hp3 | rewrite Hcs; exact Hsp].
    + intros r st' H. exact H.
    + intros s. apply esuf_cons.
    + intros [p4 next] st' (H1 & H2 & more & H3). cbn [fst snd p_toks p_line] in *.
      simpl in H3. rewrite Hc3 in H3. simpl in H3.
      assert (He : path_is_empty p4 = false) by (unfold path_is_empty; rewrite H3; reflexivity). rewrite He.
      cbn [ppost fst snd]. split; [apply steps_cons0; assumption|].
      unfold path_res. cbn [fst snd]. split; [exact H2|].
      split; [|split; [exact He | apply steps_len in H1; clear -H1; simpl; lia]].
      intros Hs. destruct H1 as (pre & E1 & _). exists [], t, pre, c. rewrite E1. split; [reflexivity|].
      split; [constructor|]. unfold path_is_simple in Hs. rewrite H3 in Hs. destruct more; [|discriminate].
      split; [|split; [exact H3 | exact Hcs]].
      unfold comp_is_identifier in Hs. rewrite Ek. destruct (cm_kind c); try discriminate.
      destruct k; try discriminate Hck. reflexivity.
Qed.

Lemma path_loop_post cx lo p : 
  let src := px_src cx in
  forall toks next line byte,
  good src (full next toks) -> pa_comps p = [] -> lo <= fst (pa_span p) -> bnd src (fst (pa_span p)) ->
  fst (pa_span p) <= pos src (full next toks) ->
  ppost (fun r st' => stepsW (full next toks) line (full (snd r) (p_toks st')) (p_line st')
                      /\ path_res src lo (full next toks) r st')
        (esuf (full next toks)) (path_loop cx p next toks line byte).
Proof.
  intros src. induction toks as [|t' toks IH]; intros next line byte Hg Hc Hlo Hb Hle; rewrite path_loop_eq.
  - destruct next as [t|]; [|split; [apply steps_W, steps_refl | exact I]].
    cbn [full] in *. destruct (t_kind t) as [b|q|q|q|k|q|q|q|q] eqn:Ek; try (apply ppost_perr, esuf_cons, esuf_refl).
    destruct (is_path_component k) eqn:Epc.
    + eapply ppost_mono; [apply (path_first_post cx lo p k t [] line Hg Ek Epc Hc Hlo Hb Hle)| |].
      * intros r st' [H1 H2]. split; [apply steps_W, H1 | exact H2].
      * intros s Hs. exact Hs.
    + split; [apply stepsW_cons; [unfold skipt; rewrite Ek, Epc; reflexivity | apply steps_W, steps_refl] | exact I].
  - destruct next as [t|]; [|split; [apply steps_W, steps_refl | exact I]].
    cbn [full] in *. destruct (t_kind t) as [b|q|q|q|k|q|q|q|q] eqn:Ek; try (apply ppost_perr, esuf_cons, esuf_refl).
    destruct (is_path_component k) eqn:Epc.
    + eapply ppost_mono; [apply (path_first_post cx lo p k t _ line Hg Ek Epc Hc Hlo Hb Hle)| |].
      * intros r st' [H1 H2]. split; [apply steps_W, H1 | exact H2].
      * intros s Hs. exact Hs.
    + pose proof (good_cons _ _ _ Hg) as (Ht & Hg' & Hpos). assert (Hlt : t_start t < t_end t) by apply Ht.
      eapply ppost_mono; [apply (IH (Some t') line (t_start t)); try assumption; cbn [full pos] in *; fold src in Hpos; lia| |].
      * intros r st' [H1 H2]. split; [apply stepsW_cons; [unfold skipt; rewrite Ek, Epc; reflexivity | exact H1]|].
        unfold path_res in *. destruct (fst r) as [p'|]; [|exact I]. destruct H2 as (R1 & R2 & R3 & R4).
        split; [exact R1|]. split; [|split; [exact R3 | clear -R4; simpl in *; lia]]. apply named_cons; [|exact R2]. rewrite Ek. intros E. injection E as ->. discriminate.
      * intros s. apply esuf_cons.
Qed.

Lemma parents_go_post checked : forall toks n r next ts,
  parents_go checked n toks = Some (r, next, ts) ->
  exists pre, toks = pre ++ full next ts /\ Forall (fun u => t_kind u = TParam KParentRef) pre.
Proof.
  induction toks as [|t toks IH]; intros n r next ts H; cbn [parents_go] in H.
  - injection H as <- <- <-. exists []. split; [reflexivity | constructor].
  - destruct (t_kind t) as [b|q|q|q|k|q|q|q|q] eqn:Ek;
      try (injection H as <- <- <-; exists []; split; [reflexivity | constructor]).
    destruct k; try (injection H as <- <- <-; exists []; split; [reflexivity | constructor]).
    assert (Hr : exists n', parents_go checked n' toks = Some (r, next, ts)).
    { destruct (n =? 255)%N; [destruct checked; [discriminate|]|]; eexists; exact H. }
    destruct Hr as (n' & Hr). destruct (IH _ _ _ _ Hr) as (pre & -> & Hf). exists (t :: pre).
    split; [reflexivity | constructor; assumption].
Qed.
Lemma path_parse_post cx k t st :
  let src := px_src cx in
  good src (t :: p_toks st) -> t_kind t = TParam k ->
  ppost (fun r st' => (exists z, t :: p_toks st = z ++ full (snd r) (p_toks st'))
                      /\ (is_path_component k = true ->
                           steps (t :: p_toks st) (p_line st) (full (snd r) (p_toks st')) (p_line st'))
                      /\ path_res src (t_start t) (t :: p_toks st) r st')
        (esuf (t :: p_toks st)) (path_parse cx k t st).
Proof.
  intros src Hg Ek. pose proof (good_cons _ _ _ Hg) as (Ht & Hg' & Hpos). unfold path_parse.
  assert (Hlt : t_start t < t_end t) by apply Ht.
  assert (Hsp : sp_in src (t_start t) (t_end t) (tspan t)) by (apply sp_in_tok; [exact Ht | lia | lia]).
  destruct (sp_in_slice _ _ _ _ Hsp) as (v & Hv). fold src. rewrite Hv. cbn [pslice].
  set (p0 := path_new (tspan t) (line_range st)).
  (* a loop started with a pending token of the rest *)
  assert (Hloop : forall p pre next ts, p_toks st = pre ++ full next ts ->
     Forall (fun u => t_kind u = TParam KParentRef) pre ->
     pa_comps p = [] -> fst (pa_span p) = t_start t ->
     noskip t = false -> t_kind t <> TParam KIdent -> is_newline (t_kind t) = false ->
     ppost (fun r st' => (exists z, t :: p_toks st = z ++ full (snd r) (p_toks st'))
                      /\ (is_path_component k = true ->
                           steps (t :: p_toks st) (p_line st) (full (snd r) (p_toks st')) (p_line st'))
                      /\ path_res src (t_start t) (t :: p_toks st) r st')
        (esuf (t :: p_toks st)) (path_loop cx p next ts (p_line st) (p_byte st))).
  { intros p pre next ts E Hpre Hpc Hps Hns Hni Hnn.
    assert (Hg2 : good src (full next ts)) by (rewrite E in Hg'; eapply good_app; exact Hg').
    assert (Hle2 : pos src (p_toks st) <= pos src (full next ts)) by (rewrite E in Hg' |- *; apply good_app; exact Hg').
    eapply ppost_mono; [apply (path_loop_post cx (t_start t) p ts next)| |].
    - exact Hg2.
    - exact Hpc.
    - rewrite Hps. lia.
    - rewrite Hps. apply Ht.
    - rewrite Hps. fold src. fold src in Hpos. lia.
    - intros r st' [H1 H2].
      split; [destruct (stepsW_suffix _ _ _ _ H1) as (z & Ez); exists (t :: pre ++ z); rewrite E, Ez; simpl; rewrite <- app_assoc; reflexivity|].
      split; [intros _; rewrite E; apply stepsW_steps; assumption|].
      unfold path_res in *. destruct (fst r) as [p'|]; [|exact I]. destruct H2 as (R1 & R2 & R3 & R4).
      split; [exact R1|].
      split; [|split; [exact R3 | clear -R4 E; simpl; rewrite E, app_length; lia]].
      apply named_cons; [exact Hni|]. rewrite E. apply named_app; [|exact R2].
      eapply Forall_impl; [|exact Hpre]. intros u ->. discriminate.
    - intros s Hs. apply esuf_cons. rewrite E. apply esuf_trans, Hs. }
  assert (Hdef : ppost (fun r st' => (exists z, t :: p_toks st = z ++ full (snd r) (p_toks st'))
                      /\ (is_path_component k = true ->
                           steps (t :: p_toks st) (p_line st) (full (snd r) (p_toks st')) (p_line st'))
                      /\ path_res src (t_start t) (t :: p_toks st) r st')
        (esuf (t :: p_toks st)) (path_loop cx p0 (Some t) (p_toks st) (p_line st) (p_byte st))).
  { destruct (is_path_component k) eqn:Epc.
    - rewrite path_loop_eq, Ek, Epc.
      eapply ppost_mono; [apply (path_first_post cx (t_start t) p0 k t (p_toks st) (p_line st) Hg Ek Epc)| |];
        try reflexivity; try apply Ht; try (simpl; lia).
      + intros r st' [H1 H2]. split; [destruct H1 as (z & Ez & _); exists z; exact Ez|]. split; [intros _; exact H1 | exact H2].
      + intros s Hs. exact Hs.
    - eapply ppost_mono; [apply (path_loop_post cx (t_start t) p0 (p_toks st) (Some t))| |];
        try reflexivity; try apply Ht; try (simpl; lia); try exact Hg.
      + intros r st' [H1 H2]. split; [apply (stepsW_suffix _ _ _ _ H1)|]. split; [discriminate | exact H2].
      + intros s Hs. exact Hs. }
  destruct k; try exact Hdef.
  - (* parent *)
    destruct (parents_go (pe_checked (px_env cx)) 1 (p_toks st)) as [[[n next] ts]|] eqn:Ep; [|right; right; reflexivity].
    apply parents_go_post in Ep. destruct Ep as (pre & E & Hpre).
    apply (Hloop _ pre); try reflexivity; try assumption; rewrite ?Ek; try (unfold noskip; rewrite Ek); try reflexivity; discriminate.
  - (* delimiter *)
    destruct (streq v [47%N]); [|apply ppost_perr; exists [t]; reflexivity].
    destruct (pnext_full st) as (E1 & E2 & E3). destruct (pnext st) as [next st1]. cbn [fst snd] in *.
    rewrite E2, E3.
    apply (Hloop _ []); try reflexivity; try (symmetry; exact E1); try constructor; rewrite ?Ek;
      try (unfold noskip; rewrite Ek); try reflexivity; discriminate.
Qed.

(** ** JSON literals *)
Inductive val_act := VaPath | VaSub | VaJson | VaErr.
Definition val_action (k : tparam) : val_act :=
  match k with
  | KThis | KPathDelim | KThisDotSlash | KIdent | KLocalIdent | KParentRef => VaPath
  | KStartSub => VaSub
  | KDoubleQuote | KSingleQuote | KStartArray | KNumber | KTrue | KFalse | KNull => VaJson
  | _ => VaErr
  end.

Lemma json_literal_post cx k t st :
  let src := px_src cx in
  good src (t :: p_toks st) -> t_kind t = TParam k -> val_action k = VaJson ->
  ppost (fun (r : json * span) st' => steps (t :: p_toks st) (p_line st) (p_toks st') (p_line st')
                      /\ sp_in src (t_start t) (pos src (p_toks st')) (snd r)
                      /\ length (p_toks st') <= length (p_toks st))
        (esuf (t :: p_toks st)) (json_literal cx k t st).
Proof.
  intros src Hg Ek Hk. pose proof (good_cons _ _ _ Hg) as (Ht & Hg' & Hpos). fold src in Hpos, Hg', Ht.
  assert (Hlt : t_start t < t_end t) by apply Ht.
  assert (Hn : is_newline (t_kind t) = false) by (rewrite Ek; destruct k; try discriminate Hk; reflexivity).
  assert (Hsp : sp_in src (t_start t) (pos src (p_toks st)) (tspan t)) by (apply sp_in_tok; [exact Ht | lia | lia]).
  assert (Hd : forall v, ppost (fun (r : json * span) st' => steps (t :: p_toks st) (p_line st) (p_toks st') (p_line st')
                      /\ sp_in src (t_start t) (pos src (p_toks st')) (snd r)
                      /\ length (p_toks st') <= length (p_toks st))
        (esuf (t :: p_toks st)) (POk (v, tspan t) st)).
  { intros v. split; [apply steps_cons0; [exact Hn | apply steps_refl] | split; [exact Hsp | apply le_n]]. }
  assert (Hl : forall ty, ppost (fun (r : json * span) st' => steps (t :: p_toks st) (p_line st) (p_toks st') (p_line st')
                      /\ sp_in src (t_start t) (pos src (p_toks st')) (snd r)
                      /\ length (p_toks st') <= length (p_toks st))
        (esuf (t :: p_toks st))
        (pbind (string_literal cx ty (tspan t) st) (fun r st => POk (fst r, (t_start t, snd (snd r) + 1)) st))).
  { intros ty. unfold string_literal.
    eapply ppost_bind with (Q1 := fun (r : json * span) st' => steps (t :: p_toks st) (p_line st) (p_toks st') (p_line st')
       /\ t_start t <= snd (snd r) /\ bnd src (snd (snd r) + 1) /\ snd (snd r) + 1 <= pos src (p_toks st') /\ length (p_toks st') <= length (p_toks st)).
    - eapply ppost_bind; [eapply ppost_mono; [apply (string_parse_post cx ty (tspan t) st); [exact Hg' | symmetry; exact Hpos]| |]|].
      + intros r st' H. exact H.
      + intros s. apply esuf_cons.
      + intros [sp fl] st' (H1 & H2 & H3 & H4 & H5). cbn [fst snd] in *.
        destruct (slice_some (px_src cx) _ _ (proj1 H2) (proj1 (proj2 H2)) (proj2 (proj2 H2))) as (v & Hv).
        unfold pslice, sl. rewrite Hv. cbn [ppost fst snd].
        split; [apply steps_cons0; assumption|]. split; [|split; [assumption | split; [assumption | eapply steps_len; exact H5]]].
        pose proof (proj2 (proj2 H2)) as Hle. cbn [tspan snd] in H1. clear -H1 Hle Hlt.
        assert (fst sp = t_end t) by exact H1. lia.
    - intros [v sp] st' (H1 & H2 & H3 & H4 & H5). cbn [ppost fst snd] in *. split; [exact H1|]. split; [|exact H5].
      split; [|split; [left; simpl; lia | exact H4]]. repeat split; simpl; [apply Ht | exact H3 | lia]. }
  destruct k; try discriminate Hk; try apply Hd; try apply Hl.
  unfold json_literal. destruct (sp_in_slice _ _ _ _ Hsp) as (v & Hv). fold src. rewrite Hv. cbn [pslice].
  destruct (parse_number _ _); [apply Hd | right; left; reflexivity].
Qed.

(** ** Unfoldings of the call functions *)
Lemma sub_expr_eq fuel cx open st :
  sub_expr (S fuel) cx open st =
  (let st := set_byte (snd open) st in
   let c := call_new open (line_range st) in
   pbind (call_target fuel cx c (fst (pnext st)) CtxSub (snd (pnext st)))
     (fun r st => pbind (arguments fuel cx (fst r) (snd r) CtxSub st)
        (fun r st => if call_is_closed (fst r) then POk (call_lines_end (p_line st) (fst r), snd r) st
                     else perr cx SSubExpressionNotTerminated st))).
Proof.
  destruct st as [[|t ts] line byte]; cbn [sub_expr pnext set_byte p_toks p_line p_byte fst snd];
  (destruct (call_target _ _ _ _ _ _) as [[c n] s| | |]; try reflexivity; cbn [pbind fst snd];
   destruct (arguments _ _ _ _ _ _) as [[c' n'] s'| | |]; reflexivity).
Qed.
Lemma value_eq fuel cx k t st :
  value_ (S fuel) cx k t st =
  match val_action k with
  | VaPath => pbind (path_parse cx k t st)
                (fun r st => match fst r with Some p => POk (VPath p, snd r) st | None => perr cx SExpectedPath st end)
  | VaSub => pbind (sub_expr fuel cx (tspan t) st) (fun r st => POk (VSub (fst r), snd r) st)
  | VaJson => pbind (json_literal cx k t st)
                (fun r st' => POk (VJson (fst r) (snd r) (line_range st), fst (pnext st')) (snd (pnext st')))
  | VaErr => perr cx STokenParameter st
  end.
Proof.
  destruct k; try reflexivity; cbn [value_ val_action];
    try (destruct (path_parse _ _ _ _) as [[p n] s| | |]; reflexivity);
    try (destruct (sub_expr _ _ _ _) as [[p n] s| | |]; reflexivity);
    (destruct (json_literal _ _ _ _) as [[v sp] [[|u us] l b]| | |]; reflexivity).
Qed.
Lemma key_value_eq fuel cx c t ctx st :
  key_value (S fuel) cx c t ctx st =
  pslice (slice (px_src cx) (t_start t) (t_end t - 1)) st (fun key =>
    match p_toks st with
    | [] => kv_loop fuel cx c None ctx st
    | u :: us =>
        match t_kind u with
        | TParam k =>
            pbind (value_ fuel cx k u (mkPst us (p_line st) (p_byte st)))
              (fun r st => kv_loop fuel cx (call_add_parameter key (fst r) c) (snd r) ctx st)
        | _ => perr cx STokenParameter (mkPst us (p_line st) (p_byte st))
        end
    end).
Proof.
  cbn [key_value]. unfold pslice. destruct (slice _ _ _); [|reflexivity].
  destruct st as [[|u us] line byte]; [reflexivity|]. cbn [pnext p_toks p_line p_byte].
  unfold perr, perr_n.
  destruct (t_kind u); try (destruct (err_info _ _ _ _ _ _); reflexivity).
  destruct (value_ _ _ _ _ _) as [[v0 n0] s0| | |]; reflexivity.
Qed.

Inductive kv_act := KaSpace | KaKey | KaEnd | KaEndSub | KaErr.
Definition kv_action (k : tparam) : kv_act :=
  match k with
  | KWhiteSpace | KNewline => KaSpace
  | KHashKey => KaKey
  | KEnd => KaEnd
  | KEndSub => KaEndSub
  | _ => KaErr
  end.
Definition count_line (k : tparam) (st : pst) : pst := match k with KNewline => inc_line st | _ => st end.
Lemma kv_loop_eq fuel cx c next ctx st :
  kv_loop (S fuel) cx c next ctx st =
  match next with
  | None => POk (c, None) st
  | Some t =>
      match t_kind t with
      | TParam k =>
          match kv_action k with
          | KaSpace => kv_loop fuel cx c (fst (pnext (count_line k st))) ctx (snd (pnext (count_line k st)))
          | KaKey => key_value fuel cx c t ctx st
          | KaEnd => POk (call_exit (tspan t) c, None) st
          | KaEndSub =>
              match ctx with
              | CtxSub => POk (call_exit (tspan t) c, fst (pnext st)) (snd (pnext st))
              | CtxCall => perr cx SSubExprNotOpen st
              end
          | KaErr => perr cx STokenHashKeyValue st
          end
      | _ => perr cx STokenParameter st
      end
  end.
Proof.
  destruct next as [t|]; [|reflexivity]. cbn [kv_loop].
  destruct (t_kind t) as [b|q|q|q|k|q|q|q|q]; try reflexivity.
  destruct k; try reflexivity; destruct st as [[|u us] l b]; try reflexivity.
  all: destruct ctx; reflexivity.
Qed.

Inductive arg_act := AaSpace | AaErr (e : serr) | AaElse | AaValue | AaKey | AaEndSub | AaEnd.
Definition arg_action (k : tparam) : arg_act :=
  match k with
  | KWhiteSpace | KNewline => AaSpace
  | KPartial => AaErr SPartialPosition
  | KElse => AaElse
  | KHashKey => AaKey
  | KEndSub => AaEndSub
  | KError => AaErr STokenError
  | KEnd => AaEnd
  | _ => AaValue
  end.
Lemma arguments_eq fuel cx c next ctx st :
  arguments (S fuel) cx c next ctx st =
  match next with
  | None => POk (c, None) st
  | Some t =>
      match t_kind t with
      | TParam k =>
          match arg_action k with
          | AaSpace => arguments fuel cx c (fst (pnext (count_line k st))) ctx (snd (pnext (count_line k st)))
          | AaErr e => perr cx e st
          | AaElse => POk (c, None) st
          | AaValue => pbind (value_ fuel cx k t st)
                         (fun r st => arguments fuel cx (call_add_argument (fst r) c) (snd r) ctx st)
          | AaKey => key_value fuel cx c t ctx st
          | AaEndSub =>
              match ctx with
              | CtxSub => POk (call_exit (tspan t) c, fst (pnext st)) (snd (pnext st))
              | CtxCall => perr cx SSubExprNotOpen st
              end
          | AaEnd => POk (match ctx with CtxSub => c | CtxCall => call_exit (tspan t) c end, None) st
          end
      | _ => perr cx STokenParameter st
      end
  end.
Proof.
  destruct next as [t|]; [|reflexivity]. cbn [arguments].
  destruct (t_kind t) as [b|q|q|q|k|q|q|q|q]; try reflexivity.
  destruct k; try reflexivity; cbn [arg_action count_line];
    try (destruct (value_ _ _ _ _ _) as [[v0 n0] s0| | |]; reflexivity);
    destruct st as [[|u us] l b]; try reflexivity; destruct ctx; reflexivity.
Qed.

Inductive tgt_act := TaSpace | TaErr (e : serr) | TaPath | TaSub | TaEnd.
Definition tgt_action (k : tparam) : tgt_act :=
  match k with
  | KWhiteSpace | KNewline => TaSpace
  | KElse => TaErr SElseNotAllowed
  | KThis | KThisDotSlash | KIdent | KLocalIdent | KParentRef | KPathDelim => TaPath
  | KStartSub => TaSub
  | KEnd => TaEnd
  | _ => TaErr STokenCallTarget
  end.
Lemma call_target_eq fuel cx c next ctx st :
  call_target (S fuel) cx c next ctx st =
  match next with
  | None => POk (c, None) st
  | Some t =>
      match t_kind t with
      | TParam k =>
          match tgt_action k with
          | TaSpace => call_target fuel cx c (fst (pnext (count_line k st))) ctx (snd (pnext (count_line k st)))
          | TaErr e => perr cx e st
          | TaPath => pbind (path_parse cx k t st)
              (fun r st => POk (match fst r with Some p => call_set_target (TPath p) c | None => c end, snd r) st)
          | TaSub =>
              match ctx with
              | CtxSub => perr cx SSubExprTargetNotAllowed st
              | CtxCall => pbind (sub_expr fuel cx (tspan t) st)
                             (fun r st => POk (call_set_target (TSub (fst r)) c, snd r) st)
              end
          | TaEnd =>
              match call_has_target (px_src cx) c with
              | None => PPanic PanSlice
              | Some has =>
                  if negb has && negb (c_conditional c) then perr cx SExpectedIdentifier st
                  else POk (match ctx with CtxSub => c | CtxCall => call_exit (tspan t) c end, None) st
              end
          end
      | _ => perr cx STokenParameter st
      end
  end.
Proof.
  destruct next as [t|]; [|reflexivity]. cbn [call_target].
  destruct (t_kind t) as [b|q|q|q|k|q|q|q|q]; try reflexivity.
  destruct k; try reflexivity; cbn [tgt_action count_line];
    try (destruct (path_parse _ _ _ _) as [[v0 n0] s0| | |]; reflexivity);
    try (destruct ctx; [|reflexivity]; destruct (sub_expr _ _ _ _) as [[v0 n0] s0| | |]; reflexivity);
    destruct st as [[|u us] l b]; reflexivity.
Qed.
