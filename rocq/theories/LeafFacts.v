(** * LeafFacts: proofs about whole calls, links, text and comments (src/parser/{call,link,block}.rs). *)
From Coq Require Import Lia String.
From Verif Require Import Str Lexer Json Ast ErrInfo Parser Spec_Lexer Spec_Ast StrFacts RegexFacts LexerFacts
  ParserFacts CallFacts ArgFacts.
Open Scope nat_scope. Open Scope list_scope.

(** ** The flags of a call *)
Lemma flags_go_post : forall toks c next line byte,
  let '(c', n', st') := flags_go c next toks line byte in
  (exists pre, full next toks = pre ++ rest n' st' /\ Forall (fun u => t_kind u <> TParam KIdent) pre)
  /\ steps (full next toks) line (rest n' st') (p_line st')
  /\ (c' = c \/ (c' = call_set_partial true c \/ c' = call_set_conditional true c)
                /\ length (rest n' st') < length (full next toks)).
Proof.
  assert (Hstop : forall (c : call) next toks line byte,
    (exists pre, full next toks = pre ++ rest next (mkPst toks line byte) /\ Forall (fun u => t_kind u <> TParam KIdent) pre)
    /\ steps (full next toks) line (rest next (mkPst toks line byte)) line
    /\ (c = c \/ (c = call_set_partial true c \/ c = call_set_conditional true c)
                /\ length (rest next (mkPst toks line byte)) < length (full next toks))).
  { intros c next toks line byte. split; [exists []; split; [reflexivity | constructor]|].
    split; [apply steps_refl | left; reflexivity]. }
  induction toks as [|t' toks IH]; intros c next line byte; cbn [flags_go].
  - destruct next as [t|]; [|apply Hstop].
    destruct (t_kind t) as [b|q|q|q|k|q|q|q|q] eqn:Ek; try apply (Hstop c (Some t)).
    destruct k; try apply (Hstop c (Some t)); cbn [pnext p_toks full rest p_line length];
      (split; [exists [t]; split; [reflexivity | constructor; [rewrite Ek; discriminate | constructor]]|]).
    + split; [apply steps_cons0; [rewrite Ek; reflexivity | apply steps_refl]|]. right. split; [left; reflexivity | simpl; lia].
    + split; [apply steps_cons0; [rewrite Ek; reflexivity | apply steps_refl]|]. right. split; [right; reflexivity | simpl; lia].
    + split; [apply steps_cons0; [rewrite Ek; reflexivity | apply steps_refl]|]. left; reflexivity.
    + split; [apply steps_cons1; [rewrite Ek; reflexivity | apply steps_refl]|]. left; reflexivity.
  - destruct next as [t|]; [|apply Hstop].
    destruct (t_kind t) as [b|q|q|q|k|q|q|q|q] eqn:Ek; try apply (Hstop c (Some t)).
    destruct k; try apply (Hstop c (Some t)); cbn [pnext p_toks full p_line].
    + split; [exists [t]; split; [reflexivity | constructor; [rewrite Ek; discriminate | constructor]]|].
      split; [apply steps_cons0; [rewrite Ek; reflexivity | apply steps_refl]|]. right. split; [left; reflexivity | simpl; lia].
    + split; [exists [t]; split; [reflexivity | constructor; [rewrite Ek; discriminate | constructor]]|].
      split; [apply steps_cons0; [rewrite Ek; reflexivity | apply steps_refl]|]. right. split; [right; reflexivity | simpl; lia].
    + specialize (IH c (Some t') line byte). destruct (flags_go c (Some t') toks line byte) as [[c' n'] st'].
      destruct IH as ((pre & E & Hf) & H2 & H3). cbn [full] in *.
      split; [exists (t :: pre); split; [rewrite E; reflexivity | constructor; [rewrite Ek; discriminate | exact Hf]]|].
      split; [apply steps_cons0; [rewrite Ek; reflexivity | exact H2]|].
      destruct H3 as [H3|[H3 H4]]; [left; exact H3 | right; split; [exact H3 | simpl in *; lia]].
    + specialize (IH c (Some t') (S line) byte). destruct (flags_go c (Some t') toks (S line) byte) as [[c' n'] st'].
      destruct IH as ((pre & E & Hf) & H2 & H3). cbn [full] in *.
      split; [exists (t :: pre); split; [rewrite E; reflexivity | constructor; [rewrite Ek; discriminate | exact Hf]]|].
      split; [apply steps_cons1; [rewrite Ek; reflexivity | exact H2]|].
      destruct H3 as [H3|[H3 H4]]; [left; exact H3 | right; split; [exact H3 | simpl in *; lia]].
Qed.

(** ** Whole calls *)
Definition cp_post (src : str) (lo : nat) (open : span) (l : list token) (line : nat) (c : call) (st' : pst) : Prop :=
  steps l line (p_toks st') (p_line st')
  /\ cinv src lo (p_toks st') c
  /\ c_open c = open
  /\ tgt_res l (p_toks st') (c_target c)
  /\ (c_conditional c = true -> length (p_toks st') < length l)
  /\ c_line c = (line, p_line st' + 1).

Lemma tgt_res_weaken l l1 l2 n1 n2 t : tgt_res l l1 t -> steps l1 n1 l2 n2 -> tgt_res l l2 t.
Proof. destruct t; [|exact (fun H _ => H)]. intros H (pre & -> & _). eapply named_weaken; [exact H | exists pre; reflexivity]. Qed.
Lemma tgt_res_app a l l' t : Forall (fun u => t_kind u <> TParam KIdent) a -> tgt_res l l' t -> tgt_res (a ++ l) l' t.
Proof. destruct t; [|exact (fun _ H => H)]. apply named_app. Qed.

Lemma call_parse_post cx lo open st :
  let src := px_src cx in
  good src (p_toks st) -> sp_in src lo (pos src (p_toks st)) open -> lo <= pos src (p_toks st) ->
  ppost (cp_post src lo open (p_toks st) (p_line st)) (esuf (p_toks st)) (call_parse cx open st).
Proof.
  intros src Hg Ho Hlo. unfold call_parse. cbv zeta.
  set (s0 := set_byte (snd open) st). set (c0 := call_new open (line_range s0)).
  pose proof (rest_pnext s0) as Er. pose proof (line_pnext s0) as El. destruct (pnext s0) as [next s1]. cbn [fst snd] in Er, El.
  pose proof (flags_go_post (p_toks s1) c0 next (p_line s1) (p_byte s1)) as Hfl.
  destruct (flags_go c0 next (p_toks s1) (p_line s1) (p_byte s1)) as [[c1 n1] s2].
  change (full next (p_toks s1)) with (rest next s1) in Hfl. rewrite Er, El in Hfl.
  change (p_toks s0) with (p_toks st) in Hfl. change (p_line s0) with (p_line st) in Hfl.
  destruct Hfl as ((pre & E & Hpre) & F2 & F3).
  pose proof (steps_good src _ _ _ _ F2 Hg) as [Hg1 Hp1].
  assert (Hc1 : call_ok src lo (pos src (rest n1 s2)) c1 /\ c_close c1 = None /\ c_target c1 = empty_target
     /\ c_open c1 = open /\ c_line c1 = line_range s0
     /\ (c_conditional c1 = true -> length (rest n1 s2) < length (p_toks st))).
  { assert (H0 : call_ok src lo (pos src (rest n1 s2)) c0) by (apply call_ok_new; eapply sp_in_mono; [apply le_n | exact Hp1 | exact Ho]).
    destruct F3 as [->|[[->| ->] Hl]]; (split; [exact H0|]; repeat (split; [reflexivity|])); [discriminate| |]; intros _; exact Hl. }
  destruct Hc1 as (C1 & C2 & C3 & C4 & C5 & C6).
  assert (Hesuf : forall s, esuf (rest n1 s2) s -> esuf (p_toks st) s) by (intros s; apply steps_esuf with (1 := F2)).
  destruct (c_partial c1 && c_conditional c1); [apply ppost_perr, Hesuf, esuf_rest|].
  destruct (call_functions_post (call_fuel s2)) as (_ & _ & _ & _ & _ & Ht).
  assert (Hlen : length (rest n1 s2) <= S (length (p_toks s2))) by (destruct n1; simpl; lia).
  eapply ppost_bind; [eapply ppost_mono; [apply (Ht cx lo c1 n1 CtxCall s2)| |]|].
  - unfold call_fuel. lia.
  - exact Hg1.
  - fold src. exact (Nat.le_trans _ _ _ Hlo Hp1).
  - exact C2.
  - exact C3.
  - split; [exact C1 | intros cl Hcl; congruence].
  - intros r s H. exact H.
  - exact Hesuf.
  - intros [c2 n2] s3 (T1 & T2 & T3 & T4 & T5). cbn [fst snd] in *. fold src in T2.
    pose proof (steps_good src _ _ _ _ T1 Hg1) as [Hg2 Hp2].
    destruct (call_functions_post (call_fuel s3)) as (_ & _ & _ & _ & Ha & _).
    assert (Hlen3 : length (rest n2 s3) <= S (length (p_toks s3))) by (destruct n2; simpl; lia).
    eapply ppost_bind; [eapply ppost_mono; [apply (Ha cx lo c2 n2 CtxCall s3)| |]|].
    + unfold call_fuel. lia.
    + exact Hg2.
    + fold src. exact (Nat.le_trans _ _ _ Hlo (Nat.le_trans _ _ _ Hp1 Hp2)).
    + exact T5.
    + exact T2.
    + intros r s H. exact H.
    + intros s Hs. apply Hesuf. eapply steps_esuf; [exact T1 | exact Hs].
    + intros [c3 n3] s4 (A1 & A2 & A3 & A4 & A5). cbn [fst snd] in *. fold src in A2.
      rewrite (A5 eq_refl) in A1, A2. unfold rest in A1 at 2, A2. cbn [full] in A1, A2. cbn [ppost]. clear A5.
      destruct T3 as (S1 & S2 & S3 & S4). destruct A3 as (S5 & S6 & S7 & S8).
      assert (Hl3 : length (p_toks s4) <= length (rest n1 s2)).
      { apply steps_len in T1. apply steps_len in A1. lia. }
      assert (HE : steps (p_toks st) (p_line st) (p_toks s4) (p_line s4)).
      { eapply steps_trans; [exact F2|]. eapply steps_trans; [exact T1 | exact A1]. }
      assert (HT : tgt_res (p_toks st) (p_toks s4) (c_target c3)).
      { rewrite A4, E. apply tgt_res_app; [exact Hpre|]. eapply tgt_res_weaken; [exact T4 | exact A1]. }
      destruct c3 as [p3 k3 o3 cl3 tg3 a3 h3 l3].
      split; [exact HE|]. split; [exact A2|]. split; [simpl in *; congruence|]. split; [exact HT|]. split.
      * simpl in *. intros Hk. rewrite S7, S3 in Hk. specialize (C6 Hk). lia.
      * simpl in *. rewrite S8, S4, C5. reflexivity.
Qed.

(** ** Text up to a stop token *)
Definition until_res (src : str) (stop : tkind -> bool) (toks : list token) (line : nat) (from : nat)
    (r : span * option token * pst) : Prop :=
  let '(sp, next, st') := r in
  exists pre, Forall (fun u => stop (t_kind u) = false) pre /\ fst sp = from
    /\ match next with
       | None => toks = pre /\ p_toks st' = [] /\ snd sp = blen src /\ p_line st' = line + nlc pre
       | Some u => toks = pre ++ u :: p_toks st' /\ stop (t_kind u) = true /\ snd sp = t_start u
                   /\ p_line st' = line + nlc pre + nl1 u
       end.
Lemma until_post src stop : forall toks sp line byte,
  good src toks -> snd sp = pos src toks ->
  until_res src stop toks line (fst sp) (until stop sp toks line byte).
Proof.
  induction toks as [|t toks IH]; intros sp line byte Hg Hs; cbn [until].
  - exists []. split; [constructor|]. split; [reflexivity|]. simpl. repeat split; [exact Hs | lia].
  - pose proof (good_cons _ _ _ Hg) as (Ht & Hg' & Hpos).
    assert (El : (if is_newline (t_kind t) then S line else line) = line + nl1 t).
    { unfold nl1. destruct (is_newline (t_kind t)); lia. }
    rewrite El. destruct (stop (t_kind t)) eqn:Es.
    + exists []. split; [constructor|]. split; [reflexivity|]. simpl. repeat split; [exact Es | exact Hs | lia].
    + specialize (IH (fst sp, t_end t) (line + nl1 t) (t_end t - 1) Hg' (eq_sym Hpos)).
      destruct (until stop (fst sp, t_end t) toks (line + nl1 t) (t_end t - 1)) as [[sp' next] st'].
      destruct IH as (pre & H1 & H2 & H3). exists (t :: pre). split; [constructor; assumption|]. split; [exact H2|].
      destruct next as [u|].
      * destruct H3 as (-> & H4 & H5 & H6). simpl. repeat split; try assumption. lia.
      * destruct H3 as (-> & H4 & H5 & H6). simpl. repeat split; try assumption. lia.
Qed.

(** a comment or a piece of raw text: what [text_until] finds *)
Definition tu_post (src : str) (stop : tkind -> bool) (open : span) (l : list token) (line : nat)
    (tb : text_block) (t : token) (st' : pst) : Prop :=
  stop (t_kind t) = true /\ (exists pre, l = pre ++ t :: p_toks st' /\ Forall (fun u => stop (t_kind u) = false) pre
     /\ p_line st' = line + nlc pre + nl1 t)
  /\ tx_span (tb_text tb) = (snd open, t_start t) /\ tb_open tb = open /\ tb_close tb = tspan t
  /\ tx_line (tb_text tb) = (line, p_line st' + 1).
Lemma text_until_post src stop open st :
  good src (p_toks st) -> snd open = pos src (p_toks st) ->
  match text_until stop open st with
  | (Some (tb, t), st') => tu_post src stop open (p_toks st) (p_line st) tb t st'
  | (None, st') => esuf (p_toks st) st'
  end.
Proof.
  intros Hg Ho. unfold text_until.
  pose proof (until_post src stop (p_toks st) (snd open, snd open) (p_line st) (p_byte st) Hg Ho) as H.
  destruct (until stop (snd open, snd open) (p_toks st) (p_line st) (p_byte st)) as [[sp next] st'].
  destruct H as (pre & H1 & H2 & H3). destruct next as [u|].
  - destruct H3 as (E & H4 & H5 & H6). split; [exact H4|]. split; [exists pre; repeat split; assumption|].
    cbn [tb_text tx_span tb_open tb_close tx_line]. repeat split. destruct sp. simpl in *. congruence.
  - destruct H3 as (E & H4 & _). exists (p_toks st). rewrite H4, app_nil_r. reflexivity.
Qed.

(** ** Links *)
Definition linkinv (src : str) (open : span) (hi : nat) (l : link) : Prop :=
  lk_open l = open /\ lk_close l = None
  /\ fst (lk_href_span l) = snd open /\ valid_span src (lk_href_span l) /\ snd (lk_href_span l) <= hi.
Definition partinv (src : str) (hi : nat) (s : span) : Prop := bnd src (fst s) /\ fst s <= hi.

Definition link_ok (src : str) (lo hi : nat) (l : link) : Prop :=
  sps src lo hi (link_spans l) /\ Forall tag_ok (tag_pair (lk_open l) (lk_close l)).
Definition lk_post (src : str) (open : span) (lr : span) (l0 : list token) (line : nat) (l : link) (st' : pst) : Prop :=
  steps l0 line (p_toks st') (p_line st') /\ lk_open l = open /\ lk_line l = lr
  /\ valid_span src (lk_href_span l) /\ fst (lk_href_span l) = snd open
  /\ (forall cl, lk_close l = Some cl -> valid_span src cl /\ snd open <= fst cl /\ snd cl = pos src (p_toks st')
        /\ snd (lk_href_span l) <= snd cl).

Lemma lk_cons src open lr t toks line l st' :
  lk_post src open lr toks (line + nl1 t) l st' -> lk_post src open lr (t :: toks) line l st'.
Proof. intros (H1 & H2). split; [apply steps_cons, H1 | exact H2]. Qed.

(** the part of a link state that matters, whatever the label and title spans *)
Definition linv (src : str) (open lr : span) (p : nat) (l : link) : Prop :=
  lk_open l = open /\ lk_close l = None /\ lk_line l = lr
  /\ fst (lk_href_span l) = snd open /\ valid_span src (lk_href_span l) /\ snd (lk_href_span l) <= p
  /\ snd open <= p.
Lemma linv_eq src open lr p l l' : linv src open lr p l ->
  lk_open l' = lk_open l -> lk_close l' = lk_close l -> lk_line l' = lk_line l -> lk_href_span l' = lk_href_span l ->
  linv src open lr p l'.
Proof. intros (H1 & H2 & H3 & H4 & H5 & H6 & H7) E1 E2 E3 E4. unfold linv. rewrite E1, E2, E3, E4. tauto. Qed.
Lemma linv_mono src open lr p p' l : linv src open lr p l -> p <= p' -> linv src open lr p' l.
Proof. intros (H1 & H2 & H3 & H4 & H5 & H6 & H7) Hp. unfold linv. rewrite H1, H2, H3, H4. repeat split; try apply H5; lia. Qed.
Lemma linv_done src open lr l toks line byte line0 :
  linv src open lr (pos src toks) l -> steps toks line0 toks line ->
  lk_post src open lr toks line0 l (mkPst toks line byte).
Proof.
  intros (H1 & H2 & H3 & H4 & H5 & H6 & H7) Hs. split; [exact Hs|]. repeat (split; [assumption|]).
  intros cl E. congruence.
Qed.
Lemma linv_close src open lr l t toks line byte : good src (t :: toks) -> is_newline (t_kind t) = false ->
  linv src open lr (t_start t) l ->
  lk_post src open lr (t :: toks) line (link_set_close (tspan t) l) (mkPst toks line byte).
Proof.
  intros Hg Hn (H1 & H2 & H3 & H4 & H5 & H6 & H7). pose proof (good_cons _ _ _ Hg) as ((B1 & B2 & B3 & _) & _ & Hp).
  split; [apply steps_cons0; [exact Hn | apply steps_refl]|]. repeat (split; [assumption|]).
  intros cl E. injection E as <-. simpl. rewrite Hp. repeat split; simpl; try assumption; lia.
Qed.

Definition part_start (vt : value_type) (l : link) : nat :=
  match vt with VLabel => fst (lk_label_span l) | VTitle => fst (lk_title_span l) end.
Lemma assign_post src l f sp vt : bnd src (part_start vt l) -> part_start vt l <= fst sp -> bnd src (fst sp) ->
  exists l', assign_if_escaped src l f sp vt = Some l' /\ lk_open l' = lk_open l /\ lk_close l' = lk_close l
    /\ lk_line l' = lk_line l /\ lk_href_span l' = lk_href_span l /\ lk_label_span l' = lk_label_span l
    /\ lk_title_span l' = lk_title_span l.
Proof.
  intros H1 H2 H3. unfold assign_if_escaped. destruct (ef_any f).
  - destruct vt; (destruct (slice_some src _ _ H1 H3 H2) as (v & Hv); simpl in Hv; rewrite Hv; eexists; split; [reflexivity|]; repeat split).
  - exists l. repeat split.
Qed.

Lemma link_value_post cx open lr : let src := px_src cx in forall toks l vt f line byte,
  good src toks -> linv src open lr (pos src toks) l -> bnd src (part_start vt l) -> part_start vt l <= pos src toks ->
  ppost (lk_post src open lr toks line) (esuf toks) (link_value cx l vt f toks line byte).
Proof.
  intros src. induction toks as [|t toks IH]; intros l vt f line byte Hg Hi Hb Hle; cbn [link_value].
  - apply linv_done; [exact Hi | apply steps_refl].
  - pose proof (good_cons _ _ _ Hg) as (Ht & Hg' & Hpos). fold src in Hpos, Hg', Ht.
    assert (Hlt : t_start t < t_end t) by apply Ht. cbn [pos] in Hi, Hle.
    assert (He : esuf (t :: toks) (mkPst toks line byte)) by (exists [t]; reflexivity).
    destruct (t_kind t) as [b|q|q|q|k|q|q|q|q] eqn:Ek; try (apply ppost_perr; exact He).
    assert (Hi' : linv src open lr (pos src toks) l) by (eapply linv_mono; [exact Hi | lia]).
    assert (Hgo : forall l' vt' f' line' byte', line' = line + nl1 t ->
       linv src open lr (pos src toks) l' -> bnd src (part_start vt' l') -> part_start vt' l' <= pos src toks ->
       ppost (lk_post src open lr (t :: toks) line) (esuf (t :: toks)) (link_value cx l' vt' f' toks line' byte')).
    { intros l' vt' f' line' byte' -> H1 H2 H3. eapply ppost_mono; [apply IH; assumption| |].
      - intros r s. apply lk_cons.
      - intros s. apply esuf_cons. }
    assert (Hnl : forall q', q = q' -> line + nl1 t = match q' with LNewline => S line | _ => line end).
    { intros q' <-. unfold nl1. rewrite Ek. destruct q; simpl; lia. }
    destruct q.
    + destruct vt; (apply Hgo; [rewrite (Hnl _ eq_refl); reflexivity | | exact Hb | cbn [part_start link_set_label_span link_set_title_span lk_label_span lk_title_span fst] in *; lia]);
        (eapply linv_eq; [exact Hi'|..]; reflexivity).
    + destruct vt.
      * set (l1 := link_set_label_span (fst (lk_label_span l), t_start t) l).
        destruct (assign_post src l1 f (tspan t) VLabel) as (l2 & E2 & Q1 & Q2 & Q3 & Q4 & Q5 & Q6);
          [exact Hb | exact Hle | apply Ht |]. fold src. rewrite E2.
        apply Hgo; [rewrite (Hnl _ eq_refl); reflexivity| | |].
        -- eapply linv_eq; [exact Hi'|..]; simpl; [rewrite Q1 | rewrite Q2 | rewrite Q3 | rewrite Q4]; reflexivity.
        -- simpl. apply Ht.
        -- simpl. lia.
      * apply Hgo; [rewrite (Hnl _ eq_refl); reflexivity| | exact Hb | simpl in *; lia].
        eapply linv_eq; [exact Hi'|..]; reflexivity.
    + apply Hgo; [rewrite (Hnl _ eq_refl); reflexivity | exact Hi' | exact Hb | lia].
    + apply Hgo; [rewrite (Hnl _ eq_refl); reflexivity | exact Hi' | exact Hb | lia].
    + apply Hgo; [rewrite (Hnl _ eq_refl); reflexivity | exact Hi' | exact Hb | lia].
    + destruct (assign_post src l f (tspan t) vt Hb Hle) as (l2 & E2 & Q1 & Q2 & Q3 & Q4 & Q5 & Q6); [apply Ht|].
      fold src. rewrite E2. apply linv_close; [exact Hg | rewrite Ek; reflexivity|].
      eapply linv_eq; [exact Hi|..]; assumption.
    + apply Hgo; [rewrite (Hnl _ eq_refl); reflexivity | exact Hi' | exact Hb | lia].
    + apply ppost_perr. exists [t]. reflexivity.
Qed.

Lemma link_href_post cx open lr : let src := px_src cx in forall toks l f line byte,
  good src toks -> linv src open lr (pos src toks) l -> bnd src (snd open) ->
  ppost (lk_post src open lr toks line) (esuf toks) (link_href_go cx l f toks line byte).
Proof.
  intros src. induction toks as [|t toks IH]; intros l f line byte Hg Hi Hb; cbn [link_href_go].
  - apply linv_done; [exact Hi | apply steps_refl].
  - pose proof (good_cons _ _ _ Hg) as (Ht & Hg' & Hpos). fold src in Hpos, Hg', Ht.
    assert (Hlt : t_start t < t_end t) by apply Ht. cbn [pos] in Hi.
    assert (He : esuf (t :: toks) (mkPst toks line byte)) by (exists [t]; reflexivity).
    assert (Hi' : linv src open lr (pos src toks) l) by (eapply linv_mono; [exact Hi | lia]).
    assert (Hgo : forall l' f' line' byte', line' = line + nl1 t ->
       linv src open lr (pos src toks) l' ->
       ppost (lk_post src open lr (t :: toks) line) (esuf (t :: toks)) (link_href_go cx l' f' toks line' byte')).
    { intros l' f' line' byte' -> H1. eapply ppost_mono; [apply IH; assumption| |].
      - intros r s. apply lk_cons.
      - intros s. apply esuf_cons. }
    assert (Ha : exists l', (if ef_any f then
               match slice (px_src cx) (snd (lk_open l)) (t_start t) with
               | Some v => Some (link_set_href (ef_owned f v) l) | None => None end else Some l) = Some l'
        /\ lk_open l' = lk_open l /\ lk_close l' = lk_close l /\ lk_line l' = lk_line l /\ lk_href_span l' = lk_href_span l).
    { destruct (ef_any f); [|exists l; repeat split].
      destruct Hi as (E1 & _ & _ & _ & _ & _ & H7). rewrite E1.
      destruct (slice_some src (snd open) (t_start t) Hb (proj1 Ht) H7) as (v & Hv). fold src. rewrite Hv.
      eexists. split; [reflexivity|]. repeat split; try reflexivity. exact E1. }
    destruct Ha as (la & Ea & Q1 & Q2 & Q3 & Q4).
    destruct (t_kind t) as [b|q|q|q|k|q|q|q|q] eqn:Ek; try (apply ppost_perr; exact He).
    assert (Hnl : nl1 t = match q with LNewline => 1 | _ => 0 end).
    { unfold nl1. rewrite Ek. destruct q; reflexivity. }
    destruct q.
    + apply Hgo; [lia|]. destruct Hi as (H1 & H2 & H3 & H4 & (V1 & V2 & V3) & H6 & H7).
      repeat (split; [assumption|]). simpl. split; [|split; lia]. repeat split; simpl; [exact V1 | apply Ht | lia].
    + rewrite Ea. eapply ppost_mono; [apply (link_value_post cx open lr toks); try assumption| |].
      * eapply linv_eq; [exact Hi'|..]; simpl; assumption.
      * simpl. apply Ht.
      * simpl. fold src. lia.
      * intros r s H. apply lk_cons. rewrite Hnl, Nat.add_0_r. exact H.
      * intros s. apply esuf_cons.
    + apply Hgo; [lia | exact Hi'].
    + apply Hgo; [lia | exact Hi'].
    + apply Hgo; [lia | exact Hi'].
    + rewrite Ea. apply linv_close; [exact Hg | rewrite Ek; reflexivity|]. eapply linv_eq; [exact Hi|..]; assumption.
    + apply lk_cons. rewrite Hnl, Nat.add_1_r. apply linv_done; [exact Hi' | apply steps_refl].
    + apply ppost_perr. exists [t]. reflexivity.
Qed.

Lemma link_parse_post cx lo open st :
  let src := px_src cx in
  good src (p_toks st) -> sp_in src lo (pos src (p_toks st)) open -> snd open = pos src (p_toks st) -> lo <= fst open ->
  ppost (fun l st' => steps (p_toks st) (p_line st) (p_toks st') (p_line st') /\ link_ok src lo (pos src (p_toks st')) l
           /\ lk_open l = open /\ option_map snd (lk_close l) = Some (pos src (p_toks st'))
           /\ lk_line l = (p_line st, p_line st' + 1))
        (esuf (p_toks st)) (link_parse cx open st).
Proof.
  intros src Hg Ho Hs Hlo. unfold link_parse. cbv zeta. pose proof (good_pos_bnd _ _ Hg) as Hb. fold src in Hb.
  set (s0 := set_byte (snd open) st).
  eapply ppost_bind; [apply (link_href_post cx open (line_range s0))| ].
  - exact Hg.
  - unfold linv. simpl. fold src. rewrite Hs. repeat split; simpl; try assumption; apply le_n.
  - fold src. rewrite Hs. exact Hb.
  - intros l s (H1 & H2 & H3 & H4 & H5 & H6). fold src in H4, H6.
    change (p_toks s0) with (p_toks st) in H1. change (p_line s0) with (p_line st) in H1.
    destruct (lk_close l) as [cl|] eqn:Ecl.
    + destruct (H6 cl eq_refl) as (V & Hle & Hend & Hh). destruct Ho as (Vo & Lo & Uo).
      assert (Hp : snd open <= snd cl) by (destruct V as (_ & _ & V3); exact (Nat.le_trans _ _ _ Hle V3)).
      assert (Hfo : fst open <= snd open) by apply Vo.
      cbn [ppost link_set_line_end lk_open lk_close lk_line lk_href_span]. split; [exact H1|].
      split; [|split; [exact H2 | split; [rewrite Ecl; simpl; congruence | rewrite H3; reflexivity]]].
      unfold link_ok, link_spans. cbn [link_set_line_end lk_open lk_close lk_href_span]. rewrite H2, Ecl. simpl.
      split.
      * rewrite <- Hend.
        constructor; [exact (conj Vo (conj Lo Hp))|]. constructor; [|constructor; [|constructor]].
        -- split; [exact V|]. split; [left; exact (Nat.le_trans _ _ _ (Nat.le_trans _ _ _ Hlo Hfo) Hle) | apply le_n].
        -- split; [exact H4|]. split; [left; rewrite H5; exact (Nat.le_trans _ _ _ Hlo Hfo) | exact Hh].
      * constructor; [exact Hle | constructor].
    + apply ppost_perr. eapply steps_esuf; [exact H1|]. exists []. reflexivity.
Qed.
