(** * ArgFacts: proofs about the mutually recursive call functions of src/parser/call.rs: they never run out of
    fuel, consume a prefix of the tokens, count newlines, and record valid spans. *)
From Coq Require Import Lia String.
From Verif Require Import Str Lexer Json Ast ErrInfo Parser Spec_Lexer Spec_Ast StrFacts RegexFacts LexerFacts
  ParserFacts CallFacts.
Open Scope nat_scope. Open Scope list_scope.

Definition same_call (c c' : call) : Prop :=
  c_open c' = c_open c /\ c_partial c' = c_partial c /\ c_conditional c' = c_conditional c
  /\ c_line c' = c_line c.
Lemma same_refl c : same_call c c.
Proof. repeat split. Qed.
Lemma same_trans a b c : same_call a b -> same_call b c -> same_call a c.
Proof. intros (H1 & H2 & H3 & H3') (H4 & H5 & H6 & H6'). repeat split; congruence. Qed.

(** what holds of a call under construction when the rest of the tokens is [l] *)
Definition cinv (src : str) (lo : nat) (l : list token) (c : call) : Prop :=
  call_ok src lo (pos src l) c /\ (forall cl, c_close c = Some cl -> snd cl = pos src l).

Definition rest (r : option token) (st : pst) : list token := full r (p_toks st).

(** the result of [arguments], [key_value], [kv_loop] *)
Definition apost (src : str) (lo : nat) (ctx : call_ctx) (c : call) (l : list token) (line : nat)
    (r : call * option token) (st' : pst) : Prop :=
  steps l line (rest (snd r) st') (p_line st')
  /\ cinv src lo (rest (snd r) st') (fst r)
  /\ same_call c (fst r) /\ c_target (fst r) = c_target c
  /\ (ctx = CtxCall -> snd r = None).

(** the result of [call_target] *)
Definition tgt_res (l l' : list token) (t : target) : Prop :=
  match t with TPath p => named l l' p | TSub _ => True end.
Definition tpost (src : str) (lo : nat) (c : call) (l : list token) (line : nat)
    (r : call * option token) (st' : pst) : Prop :=
  steps l line (rest (snd r) st') (p_line st')
  /\ cinv src lo (rest (snd r) st') (fst r)
  /\ same_call c (fst r) /\ tgt_res l (rest (snd r) st') (c_target (fst r))
  /\ (c_close (fst r) <> None -> snd r = None).

Definition vpost (src : str) (lo : nat) (l : list token) (line : nat) (r : param * option token) (st' : pst) : Prop :=
  steps l line (rest (snd r) st') (p_line st')
  /\ param_ok src lo (pos src (rest (snd r) st')) (fst r)
  /\ length (rest (snd r) st') < length l.

Definition spost (src : str) (lo : nat) (l : list token) (line : nat) (r : call * option token) (st' : pst) : Prop :=
  steps l line (rest (snd r) st') (p_line st')
  /\ call_ok src lo (pos src (rest (snd r) st')) (fst r).

Definition empty_target : target := TPath (path_new (0, 0) (0, 0)).

(** ** Building blocks *)
Lemma call_ok_new src lo hi o line : sp_in src lo hi o -> call_ok src lo hi (call_new o line).
Proof.
  intros H. apply call_ok_unfold. split; [exact H|]. split; [exact I|]. split; [|split; constructor].
  split; [|constructor]. constructor; [apply sp_in_zero | constructor].
Qed.
Lemma call_ok_exit src lo hi hi' c cl : call_ok src lo hi c -> hi <= hi' -> sp_in src lo hi' cl -> hi <= fst cl ->
  call_ok src lo hi' (call_exit cl c).
Proof.
  intros H Hh Hs Hle. destruct c as [p k o cl0 t a h l]. cbn [call_exit].
  assert (Ho : snd o <= hi) by (apply call_ok_unfold in H; apply H).
  apply (call_ok_mono _ lo hi lo hi' _ (le_n lo) Hh) in H.
  apply call_ok_unfold in H. destruct H as (H1 & H2 & H3 & H4 & H5).
  apply call_ok_unfold. split; [exact H1|]. split; [|split; [exact H3|split; assumption]].
  split; [exact Hs|]. unfold tag_ok. cbn [fst snd]. exact (Nat.le_trans _ _ _ Ho Hle).
Qed.
Lemma call_ok_add_arg src lo hi c v : call_ok src lo hi c -> param_ok src lo hi v ->
  call_ok src lo hi (call_add_argument v c).
Proof.
  intros H Hv. destruct c as [p k o cl t a h l]. cbn [call_add_argument].
  apply call_ok_unfold in H. destruct H as (H1 & H2 & H3 & H4 & H5).
  apply call_ok_unfold. split; [exact H1|]. split; [exact H2|]. split; [exact H3|]. split; [|exact H5].
  apply Forall_app. split; [exact H4 | constructor; [exact Hv | constructor]].
Qed.
Lemma call_ok_add_param src lo hi c key v : call_ok src lo hi c -> param_ok src lo hi v ->
  call_ok src lo hi (call_add_parameter key v c).
Proof.
  intros H Hv. destruct c as [p k o cl t a h l]. cbn [call_add_parameter].
  apply call_ok_unfold in H. destruct H as (H1 & H2 & H3 & H4 & H5).
  apply call_ok_unfold. split; [exact H1|]. split; [exact H2|]. split; [exact H3|]. split; [exact H4|].
  apply assoc_set_forall; assumption.
Qed.
Lemma call_ok_set_target src lo hi c t : call_ok src lo hi c -> target_ok src lo hi t ->
  call_ok src lo hi (call_set_target t c).
Proof.
  intros H Hv. destruct c as [p k o cl t0 a h l]. cbn [call_set_target].
  apply call_ok_unfold in H. destruct H as (H1 & H2 & H3 & H4 & H5).
  apply call_ok_unfold. split; [exact H1|]. split; [exact H2|]. split; [exact Hv|]. split; assumption.
Qed.
Lemma call_ok_lines src lo hi c n : call_ok src lo hi c -> call_ok src lo hi (call_lines_end n c).
Proof. destruct c as [p k o cl t a h l]. exact (fun H => H). Qed.
Lemma call_ok_flags src lo hi c b : call_ok src lo hi c ->
  call_ok src lo hi (call_set_partial b c) /\ call_ok src lo hi (call_set_conditional b c).
Proof. destruct c as [p k o cl t a h l]. exact (fun H => conj H H). Qed.

Lemma param_ok_mono src lo hi lo' hi' v : lo' <= lo -> hi <= hi' -> param_ok src lo hi v -> param_ok src lo' hi' v.
Proof. intros H1 H2 [H3 H4]. split; [eapply sps_mono; eassumption | exact H4]. Qed.

Lemma rest_pnext st : rest (fst (pnext st)) (snd (pnext st)) = p_toks st.
Proof. unfold rest. apply pnext_full. Qed.
Lemma line_pnext st : p_line (snd (pnext st)) = p_line st.
Proof. apply (pnext_full st). Qed.

Lemma cinv_skip src lo t l c : good src (t :: l) -> c_close c = None -> cinv src lo (t :: l) c -> cinv src lo l c.
Proof.
  intros Hg Hc [H1 H2]. pose proof (good_cons _ _ _ Hg) as ((_ & _ & Hlt & _) & _ & Hp). split.
  - eapply call_ok_mono; [apply le_n| |exact H1]. rewrite Hp. simpl. lia.
  - intros cl E. congruence.
Qed.
Lemma cinv_exit src lo t l c : good src (t :: l) -> lo <= t_start t -> cinv src lo (t :: l) c ->
  cinv src lo l (call_exit (tspan t) c).
Proof.
  intros Hg Hlo [H1 H2]. pose proof (good_cons _ _ _ Hg) as (Ht & _ & Hp).
  assert (Hlt : t_start t < t_end t) by apply Ht. split.
  - eapply call_ok_exit; [exact H1| | |]; rewrite ?Hp; simpl; try lia.
    apply sp_in_tok; [exact Ht | lia | lia].
  - destruct c as [p k o cl0 tt a h ll]. intros cl E. simpl in E. injection E as <-. rewrite Hp. reflexivity.
Qed.
Lemma exit_same t c : same_call c (call_exit t c) /\ c_target (call_exit t c) = c_target c
  /\ c_close (call_exit t c) = Some t.
Proof. destruct c; repeat split. Qed.
Lemma count_line_pst k t st : t_kind t = TParam k ->
  p_line (count_line k st) = p_line st + nl1 t /\ p_toks (count_line k st) = p_toks st.
Proof. intros E. unfold nl1. rewrite E. destruct k; simpl; split; reflexivity || lia. Qed.

(** ** The induction *)
Definition P_sub fuel := forall cx lo open st,
  3 * length (p_toks st) + 2 <= fuel -> good (px_src cx) (p_toks st) ->
  sp_in (px_src cx) lo (pos (px_src cx) (p_toks st)) open -> lo <= pos (px_src cx) (p_toks st) ->
  ppost (spost (px_src cx) lo (p_toks st) (p_line st)) (esuf (p_toks st)) (sub_expr fuel cx open st).
Definition P_val fuel := forall cx lo k t st,
  3 * length (p_toks st) + 3 <= fuel -> good (px_src cx) (t :: p_toks st) -> t_kind t = TParam k ->
  lo <= t_start t ->
  ppost (vpost (px_src cx) lo (t :: p_toks st) (p_line st)) (esuf (t :: p_toks st)) (value_ fuel cx k t st).
Definition P_kv fuel := forall cx lo c t ctx st,
  3 * length (p_toks st) + 2 <= fuel -> good (px_src cx) (t :: p_toks st) -> t_kind t = TParam KHashKey ->
  lo <= t_start t -> c_close c = None -> cinv (px_src cx) lo (t :: p_toks st) c ->
  ppost (apost (px_src cx) lo ctx c (t :: p_toks st) (p_line st)) (esuf (t :: p_toks st)) (key_value fuel cx c t ctx st).
Definition P_args (f : nat -> pctx -> call -> option token -> call_ctx -> pst -> pres pst (call * option token)) fuel :=
  forall cx lo c next ctx st,
  3 * length (rest next st) + 1 <= fuel -> good (px_src cx) (rest next st) ->
  lo <= pos (px_src cx) (rest next st) -> (c_close c <> None -> next = None) ->
  cinv (px_src cx) lo (rest next st) c ->
  ppost (apost (px_src cx) lo ctx c (rest next st) (p_line st)) (esuf (rest next st)) (f fuel cx c next ctx st).
Definition P_tgt fuel := forall cx lo c next ctx st,
  3 * length (rest next st) + 1 <= fuel -> good (px_src cx) (rest next st) ->
  lo <= pos (px_src cx) (rest next st) -> c_close c = None -> c_target c = empty_target ->
  cinv (px_src cx) lo (rest next st) c ->
  ppost (tpost (px_src cx) lo c (rest next st) (p_line st)) (esuf (rest next st)) (call_target fuel cx c next ctx st).

Lemma esuf_rest next st : esuf (rest next st) st.
Proof. destruct next as [t|]; [exists [t] | exists []]; reflexivity. Qed.

Lemma steps_val_esuf src lo l line r st' s :
  vpost src lo l line r st' -> esuf (rest (snd r) st') s -> esuf l s.
Proof. intros [H _]. eapply steps_esuf, H. Qed.

Lemma sub_step fuel : P_tgt fuel -> P_args arguments fuel -> P_sub (S fuel).
Proof.
  intros IHt IHa cx lo open st Hf Hg Ho Hlo. rewrite sub_expr_eq. cbv zeta.
  set (src := px_src cx) in *. set (s0 := set_byte (snd open) st).
  assert (E0 : p_toks s0 = p_toks st) by reflexivity.
  pose proof (rest_pnext s0) as Er. rewrite E0 in Er.
  eapply ppost_bind; [eapply ppost_mono; [apply (IHt cx lo)| |]|].
  - rewrite Er. lia.
  - rewrite Er. exact Hg.
  - rewrite Er. exact Hlo.
  - reflexivity.
  - reflexivity.
  - rewrite Er. split; [apply call_ok_new, Ho | discriminate].
  - intros r s H. exact H.
  - rewrite Er. exact (fun s H => H).
  - rewrite Er, line_pnext. change (p_line s0) with (p_line st).
    intros [c n] s (T1 & T2 & T3 & T4 & T5). cbn [fst snd] in *.
    pose proof (steps_good src _ _ _ _ T1 Hg) as [Hg2 Hp2].
    eapply ppost_bind; [eapply ppost_mono; [apply (IHa cx lo)| |]|].
    + apply steps_len in T1. cbn [fst snd]. lia.
    + exact Hg2.
    + cbn [fst snd]. fold src. lia.
    + exact T5.
    + exact T2.
    + intros r s' H. exact H.
    + intros s'. apply steps_esuf with (1 := T1).
    + intros [c' n'] s' (A1 & A2 & A3 & A4 & A5). cbn [fst snd] in *.
      destruct (call_is_closed c').
      * cbn [ppost]. split; cbn [fst snd]; [eapply steps_trans; eassumption|]. apply call_ok_lines, A2.
      * apply ppost_perr. eapply steps_esuf; [exact T1|]. eapply steps_esuf; [exact A1|]. apply esuf_rest.
Qed.

Lemma val_step fuel : P_sub fuel -> P_val (S fuel).
Proof.
  intros IHs cx lo k t st Hf Hg Ek Hlo. rewrite value_eq. set (src := px_src cx) in *.
  pose proof (good_cons _ _ _ Hg) as (Ht & Hg' & Hpos). assert (Hlt : t_start t < t_end t) by apply Ht.
  destruct (val_action k) eqn:Ea.
  - eapply ppost_bind; [eapply ppost_mono; [apply (path_parse_post cx k t st Hg Ek)| |]|].
    + intros r s H. exact H.
    + exact (fun s H => H).
    + intros [p n] s (H1 & H2 & H3). cbn [fst snd] in *.
      assert (Hk : is_path_component k = true) by (destruct k; try discriminate Ea; reflexivity).
      specialize (H2 Hk). destruct p as [p|].
      * destruct H3 as ([R0 R1] & R2 & R3 & R4). cbn [fst snd] in *. split; cbn [fst snd]; [exact H2|]. split; [|exact R4].
        split; [|constructor]. eapply sps_mono; [exact Hlo| |exact R1]. apply le_n.
      * apply ppost_perr. eapply steps_esuf; [exact H2|]. apply esuf_rest.
  - eapply ppost_bind; [eapply ppost_mono; [apply (IHs cx lo (tspan t) st)| |]|].
    + lia.
    + exact Hg'.
    + fold src. rewrite Hpos. apply sp_in_tok; [exact Ht | lia | lia].
    + fold src. lia.
    + intros r s H. exact H.
    + intros s. apply esuf_cons.
    + intros [c n] s (H1 & H2). cbn [fst snd ppost] in *. split; cbn [fst snd].
      * apply steps_cons0; [rewrite Ek; destruct k; try discriminate Ea; reflexivity | exact H1].
      * split; [exact H2 | apply steps_len in H1; simpl; lia].
  - eapply ppost_bind; [eapply ppost_mono; [apply (json_literal_post cx k t st Hg Ek Ea)| |]|].
    + intros r s H. exact H.
    + exact (fun s H => H).
    + intros [v sp] s (H1 & H2 & H3). cbn [fst snd ppost] in H1, H2, H3 |- *. unfold vpost. cbn [fst snd].
      rewrite rest_pnext, line_pnext. split; [exact H1|]. split; [|simpl; lia].
      split; [|constructor]. constructor; [|constructor]. eapply sp_in_mono; [exact Hlo | apply le_n | exact H2].
  - apply ppost_perr. exists [t]. reflexivity.
Qed.

Lemma kv_step fuel : P_val fuel -> P_args kv_loop fuel -> P_kv (S fuel).
Proof.
  intros IHv IHk cx lo c t ctx st Hf Hg Ek Hlo Hc Hi. rewrite key_value_eq. set (src := px_src cx) in *.
  pose proof (good_cons _ _ _ Hg) as (Ht & Hg' & Hpos). assert (Hlt : t_start t < t_end t) by apply Ht.
  assert (Hnl : is_newline (t_kind t) = false) by (rewrite Ek; reflexivity).
  destruct Ht as (B1 & B2 & B3 & B4). rewrite Ek in B4.
  destruct (slice_some src (t_start t) (t_end t - 1) B1 B4) as (key & Hkey); [lia|]. rewrite Hkey. cbn [pslice].
  assert (Hi' : cinv src lo (p_toks st) c) by (eapply cinv_skip; eassumption).
  destruct (p_toks st) as [|u us] eqn:Eu.
  - eapply ppost_mono; [apply (IHk cx lo c None ctx st)| |].
    + unfold rest. simpl. rewrite Eu. simpl. lia.
    + unfold rest. simpl. rewrite Eu. exact Hg'.
    + unfold rest. simpl. rewrite Eu. fold src. lia.
    + reflexivity.
    + unfold rest. simpl. rewrite Eu. exact Hi'.
    + intros r s (A1 & A2 & A3 & A4 & A5). unfold rest in A1 at 1. simpl in A1. rewrite Eu in A1.
      split; [apply steps_cons0; assumption|]. repeat (split; [assumption|]). assumption.
    + unfold rest. simpl. rewrite Eu. intros s. apply esuf_cons.
  - destruct (t_kind u) as [b|q|q|q|k|q|q|q|q] eqn:Eku; try (apply ppost_perr; exists [t; u]; reflexivity).
    pose proof (good_cons _ _ _ Hg') as (Hu & Hgu & Hpu).
    eapply ppost_bind; [eapply ppost_mono; [apply (IHv cx lo k u)| |]|].
    + cbn [p_toks]. simpl in Hf. lia.
    + exact Hg'.
    + exact Eku.
    + cbn [pos] in Hpos. lia.
    + intros r s H. exact H.
    + intros s. apply esuf_cons.
    + cbn [p_toks p_line]. intros [v n] s (V1 & V2 & V3). cbn [fst snd] in *. fold src in V2.
      pose proof (steps_good src _ _ _ _ V1 Hg') as [Hg2 Hp2].
      eapply ppost_mono; [apply (IHk cx lo (call_add_parameter key v c) n ctx s)| |].
      * simpl in V3, Hf. lia.
      * exact Hg2.
      * fold src. simpl in Hp2, Hpos. lia.
      * destruct c; simpl in *; congruence.
      * split.
        -- apply call_ok_add_param; [|exact V2]. eapply call_ok_mono; [apply le_n|exact Hp2|apply Hi'].
        -- intros cl E. destruct c; simpl in *; congruence.
      * intros r s' (A1 & A2 & A3 & A4 & A5). split; [apply steps_cons0; [exact Hnl|]; eapply steps_trans; eassumption|].
        split; [exact A2|]. split; [eapply same_trans; [|exact A3]; destruct c; repeat split|].
        split; [rewrite A4; destruct c; reflexivity | exact A5].
      * intros s' H. apply esuf_cons. eapply steps_esuf; eassumption.
Qed.

Lemma loop_step fuel : P_kv fuel -> P_args kv_loop fuel -> P_args kv_loop (S fuel).
Proof.
  intros IHv IHk cx lo c next ctx st Hf Hg Hlo Hc Hi. rewrite kv_loop_eq. set (src := px_src cx) in *.
  destruct next as [t|].
  2:{ split; cbn [fst snd]; [apply steps_refl|]. split; [exact Hi|]. split; [apply same_refl | split; reflexivity]. }
  cbn [rest full] in *. unfold rest in *. cbn [full] in *.
  assert (Hcn : c_close c = None) by (destruct (c_close c); [discriminate Hc; discriminate | reflexivity]).
  pose proof (good_cons _ _ _ Hg) as (Ht & Hg' & Hpos). assert (Hlt : t_start t < t_end t) by apply Ht.
  assert (Hi' : cinv src lo (p_toks st) c) by (eapply cinv_skip; eassumption).
  assert (He : esuf (t :: p_toks st) st) by (exists [t]; reflexivity).
  destruct (t_kind t) as [b|q|q|q|k|q|q|q|q] eqn:Ek; try (apply ppost_perr; exact He).
  cbn [pos] in Hlo. cbn [length] in Hf.
  destruct (kv_action k) eqn:Ea.
  - destruct (count_line_pst k t st Ek) as [L1 L2].
    pose proof (rest_pnext (count_line k st)) as Er. rewrite L2 in Er. unfold rest in Er.
    eapply ppost_mono; [apply (IHk cx lo c _ ctx)| |]; unfold rest; rewrite ?Er.
    + lia.
    + exact Hg'.
    + fold src. lia.
    + rewrite Hcn. congruence.
    + exact Hi'.
    + rewrite line_pnext, L1. intros r s (A1 & A2). split; [apply steps_cons, A1 | exact A2].
    + intros s. apply esuf_cons.
  - apply IHv; try assumption; [lia|]. rewrite Ek. destruct k; try discriminate Ea. reflexivity.
  - split; cbn [fst snd]; [apply steps_cons0; [rewrite Ek; destruct k; try discriminate Ea; reflexivity | apply steps_refl]|].
    split; [apply cinv_exit; assumption|]. destruct (exit_same (tspan t) c) as (S1 & S2 & _). split; [exact S1|]. split; [exact S2 | reflexivity].
  - destruct ctx; [apply ppost_perr; exact He|].
    unfold ppost, apost. cbn [fst snd]. rewrite rest_pnext, line_pnext.
    split; [apply steps_cons0; [rewrite Ek; destruct k; try discriminate Ea; reflexivity | apply steps_refl]|].
    split; [apply cinv_exit; assumption|]. destruct (exit_same (tspan t) c) as (S1 & S2 & _). split; [exact S1|]. split; [exact S2 | discriminate].
  - apply ppost_perr; exact He.
Qed.

Lemma args_step fuel : P_val fuel -> P_kv fuel -> P_args arguments fuel -> P_args arguments (S fuel).
Proof.
  intros IHv IHkv IHa cx lo c next ctx st Hf Hg Hlo Hc Hi. rewrite arguments_eq. set (src := px_src cx) in *.
  destruct next as [t|].
  2:{ split; cbn [fst snd]; [apply steps_refl|]. split; [exact Hi|]. split; [apply same_refl | split; reflexivity]. }
  unfold rest in *. cbn [full] in *.
  assert (Hcn : c_close c = None) by (destruct (c_close c); [discriminate Hc; discriminate | reflexivity]).
  pose proof (good_cons _ _ _ Hg) as (Ht & Hg' & Hpos). assert (Hlt : t_start t < t_end t) by apply Ht.
  assert (Hi' : cinv src lo (p_toks st) c) by (eapply cinv_skip; eassumption).
  assert (He : esuf (t :: p_toks st) st) by (exists [t]; reflexivity).
  destruct (t_kind t) as [b|q|q|q|k|q|q|q|q] eqn:Ek; try (apply ppost_perr; exact He).
  cbn [pos] in Hlo. cbn [length] in Hf.
  destruct (arg_action k) eqn:Ea.
  - destruct (count_line_pst k t st Ek) as [L1 L2].
    pose proof (rest_pnext (count_line k st)) as Er. rewrite L2 in Er. unfold rest in Er.
    eapply ppost_mono; [apply (IHa cx lo c _ ctx)| |]; unfold rest; rewrite ?Er.
    + lia.
    + exact Hg'.
    + fold src. lia.
    + rewrite Hcn. congruence.
    + exact Hi'.
    + rewrite line_pnext, L1. intros r s (A1 & A2). split; [apply steps_cons, A1 | exact A2].
    + intros s. apply esuf_cons.
  - apply ppost_perr; exact He.
  - split; cbn [fst snd]; [apply steps_cons0; [rewrite Ek; destruct k; try discriminate Ea; reflexivity | apply steps_refl]|].
    split; [exact Hi'|]. split; [apply same_refl | split; reflexivity].
  - eapply ppost_bind; [eapply ppost_mono; [apply (IHv cx lo k t st)| |]|].
    + lia.
    + exact Hg.
    + exact Ek.
    + exact Hlo.
    + intros r s H. exact H.
    + exact (fun s H => H).
    + intros [v n] s (V1 & V2 & V3). cbn [fst snd] in *. fold src in V2.
      pose proof (steps_good src _ _ _ _ V1 Hg) as [Hg2 Hp2].
      eapply ppost_mono; [apply (IHa cx lo (call_add_argument v c) n ctx s)| |].
      * simpl in V3. lia.
      * exact Hg2.
      * fold src. simpl in Hp2. lia.
      * destruct c; simpl in *; congruence.
      * split.
        -- apply call_ok_add_arg; [|exact V2]. eapply call_ok_mono; [apply le_n|exact Hp2|apply Hi].
        -- intros cl E. destruct c; simpl in *; congruence.
      * intros r s' (A1 & A2 & A3 & A4 & A5). split; [eapply steps_trans; eassumption|].
        split; [exact A2|]. split; [eapply same_trans; [|exact A3]; destruct c; repeat split|].
        split; [rewrite A4; destruct c; reflexivity | exact A5].
      * intros s' H. eapply steps_esuf; eassumption.
  - apply IHkv; try assumption; [lia|]. rewrite Ek. destruct k; try discriminate Ea. reflexivity.
  - destruct ctx; [apply ppost_perr; exact He|].
    unfold ppost, apost. cbn [fst snd]. rewrite rest_pnext, line_pnext.
    split; [apply steps_cons0; [rewrite Ek; destruct k; try discriminate Ea; reflexivity | apply steps_refl]|].
    split; [apply cinv_exit; assumption|]. destruct (exit_same (tspan t) c) as (S1 & S2 & _). split; [exact S1|]. split; [exact S2 | discriminate].
  - destruct (exit_same (tspan t) c) as (S1 & S2 & _).
    split; cbn [fst snd]; [apply steps_cons0; [rewrite Ek; destruct k; try discriminate Ea; reflexivity | apply steps_refl]|].
    split; [destruct ctx; [apply cinv_exit; assumption | exact Hi']|].
    split; [destruct ctx; [exact S1 | apply same_refl]|]. split; [destruct ctx; [exact S2 | reflexivity] | reflexivity].
Qed.

Lemma tgt_step fuel : P_sub fuel -> P_tgt fuel -> P_tgt (S fuel).
Proof.
  intros IHs IHt cx lo c next ctx st Hf Hg Hlo Hcn Htg Hi. rewrite call_target_eq. set (src := px_src cx) in *.
  assert (Hemp : forall l l', tgt_res l l' (c_target c)) by (intros l l'; rewrite Htg; intros E; discriminate E).
  destruct next as [t|].
  2:{ split; cbn [fst snd]; [apply steps_refl|]. split; [exact Hi|]. split; [apply same_refl | split; [apply Hemp | reflexivity]]. }
  unfold rest in *. cbn [full] in *.
  pose proof (good_cons _ _ _ Hg) as (Ht & Hg' & Hpos). assert (Hlt : t_start t < t_end t) by apply Ht.
  assert (Hi' : cinv src lo (p_toks st) c) by (eapply cinv_skip; eassumption).
  assert (He : esuf (t :: p_toks st) st) by (exists [t]; reflexivity).
  destruct (t_kind t) as [b|q|q|q|k|q|q|q|q] eqn:Ek; try (apply ppost_perr; exact He).
  cbn [pos] in Hlo. cbn [length] in Hf.
  destruct (tgt_action k) eqn:Ea.
  - destruct (count_line_pst k t st Ek) as [L1 L2].
    pose proof (rest_pnext (count_line k st)) as Er. rewrite L2 in Er. unfold rest in Er.
    eapply ppost_mono; [apply (IHt cx lo c _ ctx)| |]; unfold rest; rewrite ?Er.
    + lia.
    + exact Hg'.
    + fold src. lia.
    + exact Hcn.
    + exact Htg.
    + exact Hi'.
    + rewrite line_pnext, L1. intros r s (A1 & A2 & A3 & A4 & A5). split; [apply steps_cons, A1|].
      split; [exact A2|]. split; [exact A3|]. split; [|exact A5].
      destruct (c_target (fst r)) as [p|]; [|exact I]. apply named_cons; [|exact A4].
      rewrite Ek. intros E. injection E as ->. discriminate Ea.
    + intros s. apply esuf_cons.
  - apply ppost_perr; exact He.
  - eapply ppost_bind; [eapply ppost_mono; [apply (path_parse_post cx k t st Hg Ek)| |]|].
    + intros r s H. exact H.
    + exact (fun s H => H).
    + intros [p n] s (H1 & H2 & H3). cbn [fst snd] in *.
      assert (Hk : is_path_component k = true) by (destruct k; try discriminate Ea; reflexivity).
      specialize (H2 Hk). pose proof (steps_good src _ _ _ _ H2 Hg) as [Hg2 Hp2]. destruct p as [p|].
      * destruct H3 as ([R0 R1] & R2 & R3 & R4). cbn [fst snd ppost] in *. split; cbn [fst snd]; [exact H2|].
        split; [|split; [|split; [|]]].
        -- split.
           ++ apply call_ok_set_target; [eapply call_ok_mono; [apply le_n|exact Hp2|apply Hi]|].
              split; [|constructor]. eapply sps_mono; [exact Hlo|apply le_n|exact R1].
           ++ intros cl E. destruct c; simpl in *; congruence.
        -- destruct c; repeat split.
        -- destruct c; exact R2.
        -- destruct c; simpl in *; congruence.
      * cbn [ppost]. split; cbn [fst snd]; [exact H2|].
        split; [|split; [apply same_refl | split; [apply Hemp | congruence]]].
        split; [eapply call_ok_mono; [apply le_n|exact Hp2|apply Hi] | intros cl E; congruence].
  - destruct ctx; [|apply ppost_perr; exact He].
    eapply ppost_bind; [eapply ppost_mono; [apply (IHs cx lo (tspan t) st)| |]|].
    + lia.
    + exact Hg'.
    + fold src. rewrite Hpos. apply sp_in_tok; [exact Ht | lia | lia].
    + fold src. lia.
    + intros r s H. exact H.
    + intros s. apply esuf_cons.
    + intros [c' n] s (H1 & H2). cbn [fst snd ppost] in *.
      pose proof (steps_good src _ _ _ _ H1 Hg') as [Hg2 Hp2].
      split; cbn [fst snd].
      * apply steps_cons0; [rewrite Ek; destruct k; try discriminate Ea; reflexivity | exact H1].
      * split; [|split; [|split; [|]]].
        -- split; [apply call_ok_set_target; [eapply call_ok_mono; [apply le_n|exact Hp2|apply Hi'] | exact H2]|].
           intros cl E. destruct c; simpl in *; congruence.
        -- destruct c; repeat split.
        -- destruct c; exact I.
        -- destruct c; simpl in *; congruence.
  - unfold call_has_target. rewrite Htg. cbn [empty_target target_str path_str path_new pa_span].
    unfold path_str, sl. cbn [path_new pa_span fst snd]. fold src. rewrite (slice_refl src 0) by apply bnd_0. cbn [negb].
    destruct (true && negb (c_conditional c)); [apply ppost_perr; exact He|].
    destruct (exit_same (tspan t) c) as (S1 & S2 & _).
    split; cbn [fst snd]; [apply steps_cons0; [rewrite Ek; destruct k; try discriminate Ea; reflexivity | apply steps_refl]|].
    split; [destruct ctx; [apply cinv_exit; assumption | exact Hi']|].
    split; [destruct ctx; [exact S1 | apply same_refl]|].
    split; [destruct ctx; [rewrite S2|]; apply Hemp | reflexivity].
Qed.

Lemma call_functions_post : forall fuel,
  P_sub fuel /\ P_val fuel /\ P_kv fuel /\ P_args kv_loop fuel /\ P_args arguments fuel /\ P_tgt fuel.
Proof.
  induction fuel as [|fuel (I1 & I2 & I3 & I4 & I5 & I6)].
  - repeat split; intros cx lo; intros; lia.
  - split; [apply sub_step; assumption|]. split; [apply val_step; assumption|].
    split; [apply kv_step; assumption|]. split; [apply loop_step; assumption|].
    split; [apply args_step; assumption | apply tgt_step; assumption].
Qed.
