(** * PanicFacts: rendering a readable template never slices the source at a bad place. *)
From Coq Require Import Lia String Permutation.
From Verif Require Import Str Regex Lexer Json Ast ErrInfo Parser Render Spec_Lexer Spec_Ast StrFacts RegexFacts LexerFacts
  ParserFacts CallFacts ArgFacts LeafFacts TreeFacts BlockFacts DocFacts DocProps EvalFacts TermFacts Spec_Source Spec_Panic.
Open Scope nat_scope. Open Scope list_scope.

(** ** What each step reads *)
Definition path_safe (src : str) (p : path) : Prop := path_str src p <> None /\ comp_values src (pa_comps p) <> None.
Definition call_safe (src : str) (c : call) : Prop := exists lo hi, call_ok src lo hi c.
Definition param_safe (src : str) (v : param) : Prop :=
  match v with VJson _ _ _ => True | VPath p => path_safe src p | VSub c => call_safe src c end.
Definition target_safe (src : str) (v : target) : Prop :=
  match v with TPath p => path_safe src p | TSub c => call_safe src c end.
Lemma path_ok_safe src lo hi p : path_ok src lo hi p -> path_safe src p.
Proof.
  unfold path_ok, path_spans. intros H. inversion H as [|? ? H1 H2]; subst. split.
  - destruct (sp_in_slice _ _ _ _ H1) as (v & E). unfold path_str. rewrite E. discriminate.
  - clear H H1. induction (pa_comps p) as [|c cs IH]; [discriminate|]. cbn [map] in H2. inversion H2 as [|? ? H3 H4]; subst.
    specialize (IH H4). cbn [comp_values]. unfold comp_value, comp_str. destruct (sp_in_slice _ _ _ _ H3) as (v & ->).
    destruct (cm_value c); destruct (comp_values src cs); congruence.
Qed.
Lemma call_parts src c : call_safe src c ->
  call_open_str src c <> None /\ call_close_str src c <> None /\ call_str src c <> None
  /\ target_safe src (c_target c) /\ Forall (param_safe src) (c_args c) /\ Forall (fun kv => param_safe src (snd kv)) (c_params c).
Proof.
  intros (lo & hi & H). destruct c as [p k o cl t a h l]. apply call_ok_unfold in H. destruct H as (H1 & H2 & H3 & H4 & H5).
  assert (Hp : forall v, param_ok src lo hi v -> param_safe src v).
  { intros v [V1 V2]. destruct v as [v|v s l0|c']; cbn [param_safe]; [apply (path_ok_safe _ lo hi); exact V1 | exact I | exists lo, hi; split; assumption]. }
  unfold call_open_str, call_close_str, call_str. cbn [c_open c_close c_target c_args c_params].
  destruct (sp_in_slice _ _ _ _ H1) as (v & E). rewrite E.
  repeat split; try discriminate.
  - destruct cl as [cl|]; [|discriminate]. destruct H2 as [H2 _]. destruct (sp_in_slice _ _ _ _ H2) as (w & ->). discriminate.
  - destruct cl as [cl|]; [|discriminate]. destruct H2 as [((V1 & V2 & V3) & _) T]. destruct H1 as ((W1 & W2 & W3) & _).
    destruct (slice_some src (fst o) (snd cl) W1 V2) as (m & ->); [|discriminate]. unfold tag_ok in T. cbn [fst snd] in T. lia.
  - destruct H3 as [T1 T2]. destruct t as [t|c']; cbn [target_safe]; [apply (path_ok_safe _ lo hi); exact T1 | exists lo, hi; split; assumption].
  - eapply Forall_impl; [|exact H4]. exact Hp.
  - eapply Forall_impl; [|exact H5]. intros kv. apply Hp.
Qed.

Section NoPanic.
Context (pl : plat) (reg : registry) (own : Prop).

Definition leaf_safe (src : str) (n : node) : Prop :=
  match n with
  | NText t => text_str src t <> None
  | NStmt c => call_safe src c
  | NRawStmt t => exists s, text_block_str src t = Some s /\ slice s 1 (blen s) <> None
  | NLink l => match link_is_escaped src l with
               | Some true => link_after_escape src l <> None
               | Some false => link_str src l <> None
                   /\ (link_handler pl reg -> link_href src l <> None /\ link_label src l <> None /\ link_title src l <> None)
               | None => False
               end
  | _ => True
  end.
Definition block_safe (src : str) (b : block) : Prop :=
  node_trim src (NBlock b) <> None /\ block_trim_close src b <> None /\ call_safe src (b_call b)
  /\ (b_raw b = true -> match b_nodes b with n :: _ => node_str src n <> None | [] => True end).
Definition safe (src : str) (n : node) : Prop :=
  Forall (leaf_safe src) (node_leaves n) /\ Forall (fun fb => block_safe src (snd fb)) (node_blocks false n).
Definition SP (t : tpl) : Prop := safe (tp_src t) (tp_node t).

Lemma blocks_flag src f n : Forall (fun fb => block_safe src (snd fb)) (node_blocks f n) -> Forall (fun fb => block_safe src (snd fb)) (node_blocks false n).
Proof.
  destruct n as [l|t|c|b|t|t|t|l]; try exact (fun H => H). destruct b as [ns r o cl c cs ln]. cbn [node_blocks block_blocks].
  intros H. inversion H; subst. constructor; assumption.
Qed.
Lemma safe_inside src n m : safe src n -> In m (inside n) -> safe src m.
Proof.
  intros [H1 H2] Hin. destruct n as [l|t|c|b|t|t|t|l]; try destruct Hin.
  - cbn [inside] in Hin. cbn [node_leaves node_blocks] in H1, H2. apply Forall_flat_map in H1, H2. rewrite Forall_forall in H1, H2. split; auto.
  - destruct b as [ns r o cl c cs ln]. cbn [inside b_nodes b_conds] in Hin. cbn [node_leaves block_leaves node_blocks block_blocks] in H1, H2.
    apply Forall_app in H1. destruct H1 as [H1 H1']. inversion H2 as [|? ? _ H2a]; subst. apply Forall_app in H2a. destruct H2a as [H2a H2b].
    apply Forall_flat_map in H1, H1', H2a, H2b. rewrite Forall_forall in H1, H1', H2a, H2b. apply in_app_or in Hin.
    destruct Hin as [Hin|Hin]; (split; [auto|]); [auto|]. eapply blocks_flag, H2b, Hin.
Qed.
Lemma safe_block src b : safe src (NBlock b) -> block_safe src b.
Proof. intros [_ H]. destruct b. cbn [node_blocks block_blocks] in H. inversion H; subst. assumption. Qed.
Lemma safe_leaf src n : node_leaves n = [n] -> safe src n -> leaf_safe src n.
Proof. intros E [H _]. rewrite E in H. inversion H; subst. assumption. Qed.
Lemma safe_children src n : safe src n -> Forall (safe src) (children n).
Proof.
  intros H. apply Forall_forall. intros m Hm. apply (safe_inside src n m H). destruct n; try destruct Hm; [exact Hm|].
  cbn [inside children] in *. apply in_or_app. left. exact Hm.
Qed.
Lemma safe_trim src n : safe src n -> node_trim src n <> None.
Proof.
  intros H. destruct n as [l|t|c|b|t|t|t|l]; try discriminate.
  - apply safe_leaf in H; [|reflexivity]. apply call_parts in H. destruct H as (H1 & H2 & _).
    cbn [node_trim]. unfold hint2, call_trim_before, call_trim_after. destruct (call_open_str src c), (call_close_str src c); congruence.
  - apply safe_block in H. apply H.
Qed.

(** ** The logic *)
Definition HC (h : helper) : Prop := forall c t, all_opt SP t -> calm pl reg own SP (h c t).
Definition inv (st : rst) : Prop := Forall (fun kh => HC (snd kh)) (r_local st) /\ Forall (fun kt => SP (snd kt)) (r_partials st).
Definition np {A} (Q : A -> Prop) (m : M A) : Prop := forall st, inv st ->
  match m st with ROk a s => inv s /\ Q a | RErr _ s => inv s | RPanic p => own /\ p = PanUnwrap | RFuel => True end.
Definition T {A} (_ : A) : Prop := True.

Lemma np_ret {A} (Q : A -> Prop) a : Q a -> np Q (ret a).
Proof. intros H st Hi. split; assumption. Qed.
Lemma np_fail {A} (Q : A -> Prop) e : np Q (fail e).
Proof. intros st Hi. exact Hi. Qed.
Lemma np_bind {A B} (Q : A -> Prop) (R : B -> Prop) m f : np Q m -> (forall a, Q a -> np R (f a)) -> np R (bind m f).
Proof.
  intros Hm Hf st Hi. specialize (Hm st Hi). unfold bind. destruct (m st) as [a s|e s|p|]; try exact Hm.
  destruct Hm as [Hi' Hq]. apply (Hf a Hq s Hi').
Qed.
Lemma np_need {A} (o : option A) : o <> None -> np (fun a => o = Some a) (need o).
Proof. intros H. destruct o; [|congruence]. intros st Hi. split; [exact Hi | reflexivity]. Qed.
Lemma np_weak {A} (Q R : A -> Prop) m : (forall a, Q a -> R a) -> np Q m -> np R m.
Proof. intros H Hm st Hi. specialize (Hm st Hi). destruct (m st); try exact Hm. destruct Hm; split; auto. Qed.
Lemma np_T {A} (Q : A -> Prop) m : np Q m -> np T m.
Proof. apply np_weak. intros; exact I. Qed.
Lemma np_get {A} (R : A -> Prop) f : (forall s, inv s -> np R (f s)) -> np R (bind get f).
Proof. intros H st Hi. apply (H st Hi st Hi). Qed.
Lemma np_upd f : (forall s, inv s -> inv (f s)) -> np T (upd f).
Proof. intros H st Hi. split; [apply H, Hi | exact I]. Qed.
Lemma np_catch {A B} (Q : A -> Prop) (R : B -> Prop) m f : np Q m -> (forall a, Q a -> np R (f (HOk a))) -> (forall e, np R (f (HErr e))) -> np R (mcatch m f).
Proof.
  intros Hm Hf He st Hi. specialize (Hm st Hi). unfold mcatch. destruct (m st) as [a s|e s|p|]; try exact Hm.
  - destruct Hm as [Hi' Hq]. apply (Hf a Hq s Hi').
  - apply (He e s Hm).
Qed.
Ltac upd_ok := apply np_upd; let x := fresh "st" in let y := fresh "Hst" in intros x y; exact y.
Ltac need_ok := eapply np_bind; [apply np_need | intros ? _].

Section Step.
Context (K : knot) (en : env) (Hpl : en_plat en = pl) (Hrg : en_reg en = reg).
Context (HKn : forall src n tr, safe src n -> np T (k_node K en src n tr)).
Context (HKc : forall src c, call_safe src c -> np T (k_call K en src c)).
Context (HKs : forall src c, call_safe src c -> np T (k_stmt K en src c)).
Context (Htab : forall src c, Permutation (pl_order pl src c) (c_params c)).

Lemma np_emit s : np T (emit en s).
Proof. intros st Hi. unfold emit. destruct (en_write en (r_out st) s); [split; [exact Hi | exact I] | exact Hi]. Qed.
Lemma np_write s e : np T (write_str en s e).
Proof.
  unfold write_str. apply np_get. intros st _. destruct (if ts_end (r_trim st) then _ else _); [apply np_ret; exact I | apply np_emit].
Qed.
Lemma np_writet s e : np T (write_str en s e ;; ret tt).
Proof. eapply np_bind; [apply np_write|]. intros; apply np_ret; exact I. Qed.
Lemma np_lookup src p : path_safe src p -> np T (mlookup en src p).
Proof.
  intros [_ H]. unfold mlookup. apply np_get. intros st _. eapply np_T, np_need. unfold lookup. destruct (pa_absolute p); [discriminate|].
  destruct (comp_values src (pa_comps p)); [discriminate | congruence].
Qed.
Lemma np_evaluate s : (forall p, path_from_str (pl_penv pl) s <> PPanic p) -> np T (evaluate en s).
Proof.
  intros H. unfold evaluate. rewrite Hpl. destruct (path_from_str (pl_penv pl) s) as [[p|] fs|e fs|p|] eqn:E.
  - apply np_lookup. clear H. unfold path_from_str in E. destruct (lex_from_total MParam s) as (toks & El & _). rewrite El in E.
    pose proof (lex_from_good _ _ _ El) as Hg. destruct toks as [|t toks]; unfold pnext in E; cbn [p_toks p_line p_byte] in E; [discriminate|].
    destruct (t_kind t) as [k|k|k|k|k|k|k|k|k] eqn:Ek; try (unfold perr, perr_n in E; destruct (err_info _ _ _ _ _ _); discriminate).
    pose proof (path_parse_post (mkPctx (pl_penv pl) s (lit "unknown")) k t (mkPst toks 0 0) Hg Ek) as X.
    unfold pbind in E. destruct (path_parse _ _ _ _) as [r st'|e st'|pp|]; try discriminate. cbn [ppost] in X.
    destruct X as (_ & _ & X). injection E as E _. unfold path_res in X. rewrite E in X. destruct X as [X _].
    apply (path_ok_safe _ (t_start t) (pos s (full (snd r) (p_toks st')))). apply X.
  - apply np_ret. exact I.
  - apply np_fail.
  - exfalso. apply (H p). reflexivity.
  - intros st Hi. exact I.
Qed.
Lemma np_iter src f : (forall n tr a b, safe src n -> np T (f n tr a b)) -> forall ns, Forall (safe src) ns ->
  forall prev hint, np T (iter_nodes src f prev hint ns).
Proof.
  intros Hf. induction 1 as [|n ns Hn Hns IH]; intros prev hint; cbn [iter_nodes]; [apply np_ret; exact I|].
  destruct (match prev with Some b => _ | None => _ end) as [start hint'].
  eapply (np_bind T).
  { destruct Hns; [apply np_ret; exact I|]. need_ok; [apply safe_trim; assumption|]. apply np_ret. exact I. }
  intros stop _. need_ok; [apply safe_trim, Hn|]. eapply np_bind; [apply Hf, Hn|]. intros; apply IH.
Qed.
Lemma np_render t : SP t -> np T (render_ K en t).
Proof. intros H. unfold render_. apply np_iter; [|apply safe_children, H]. intros n tr a b Hn. apply HKn, Hn. Qed.
Lemma np_template t : SP t -> np T (template_ K en t).
Proof.
  intros H. unfold template_. cbv zeta. apply np_get. intros st _. eapply np_bind; [apply np_iter; [|apply safe_children, H]|].
  - intros n tr a b Hn. eapply (np_bind T).
    { destruct a; [|apply np_ret; exact I]. need_ok; [apply safe_trim, H|]. apply np_ret. exact I. }
    intros tr1 _. eapply (np_bind T).
    { destruct b; [|apply np_ret; exact I]. unfold SP in H. destruct (tp_node t); try (apply np_ret; exact I).
      need_ok; [apply safe_block in H; apply H|]. apply np_ret. exact I. }
    intros tr2 _. apply HKn, Hn.
  - intros _ _. eapply (np_bind T); [|intros; upd_ok]. destruct (children (tp_node t)); [apply np_ret; exact I|].
    unfold SP in H. destruct (tp_node t); try (apply np_ret; exact I). need_ok; [apply safe_block in H; apply H|]. apply np_ret. exact I.
Qed.
Lemma np_inverse t : SP t -> np (all_opt SP) (inverse K en t).
Proof.
  intros H. unfold inverse, SP in *. destruct (tp_node t) as [| | |b| | | |] eqn:En; try (apply np_ret; exact I).
  assert (Hc : Forall (safe (tp_src t)) (b_conds b)).
  { apply Forall_forall. intros m Hm. apply (safe_inside _ _ m H). cbn [inside]. apply in_or_app. right. exact Hm. }
  apply (np_bind (all_opt (safe (tp_src t)))).
  2:{ intros o Ho. apply np_ret. destruct o; [exact Ho | exact I]. }
  clear En H. assert (Ha : forall alt : option node, all_opt (safe (tp_src t)) alt -> np (all_opt (safe (tp_src t))) (inverse_go K en (tp_src t) alt (b_conds b))).
  { induction Hc as [|m ms Hm Hms IH]; intros alt Ha; cbn [inverse_go]; [apply np_ret, Ha|].
    destruct m as [| | |c| | | |]; try (apply IH, Ha). destruct (call_is_empty (b_call c)); [apply IH; exact Hm|].
    eapply np_bind; [apply HKc; apply safe_block in Hm; apply Hm|]. intros v _. destruct v as [v|]; [|apply IH, Ha].
    destruct (is_truthy v); [apply np_ret; exact Hm | apply IH, Ha]. }
  apply Ha. exact I.
Qed.
Lemma np_param src v : param_safe src v -> np T (eval_param K en src v).
Proof.
  intros H. destruct v as [p|j s l|c]; cbn [eval_param param_safe] in *; [|apply np_ret; exact I|].
  - eapply np_bind; [apply np_lookup, H|]. intros [v|] _; [apply np_ret; exact I|]. need_ok; [apply H|]. apply np_ret. exact I.
  - eapply np_bind; [apply HKs, H|]. intros [v|] _; [apply np_ret; exact I|]. need_ok; [apply call_parts in H; apply H|]. apply np_ret. exact I.
Qed.
Lemma np_arguments src ps : Forall (param_safe src) ps -> forall i, np T (arguments K en src i ps).
Proof.
  induction 1 as [|p ps Hp Hps IH]; intros i; cbn [arguments]; [apply np_ret; exact I|].
  eapply np_bind; [apply np_param, Hp|]. intros r _. eapply np_bind; [apply IH|]. intros; apply np_ret; exact I.
Qed.
Lemma np_hash_go src ps : Forall (fun kv => param_safe src (snd kv)) ps -> forall acc, np T (hash_go K en src ps acc).
Proof.
  induction 1 as [|[k p] ps Hp Hps IH]; intros acc; cbn [hash_go]; [apply np_ret; exact I|].
  eapply np_bind; [apply np_param, Hp|]. intros r _. eapply np_bind; [apply IH|]. intros; apply np_ret; exact I.
Qed.
Lemma np_hash src c : Forall (fun kv => param_safe src (snd kv)) (c_params c) -> np T (hash K en src c).
Proof.
  intros H. unfold hash. apply np_hash_go. rewrite Hpl. eapply Permutation_Forall; [|exact H]. apply Permutation_sym, Htab.
Qed.

Lemma inv_new sk sc : inv (up_scopes sc (r_new sk)).
Proof. split; constructor. Qed.
End Step.

Section Run.
Context (Htab : forall src c, Permutation (pl_order pl src c) (c_params c)).
Context (Hsound : forall o s n fs, sound_source pl reg s -> compile (pl_penv pl) o s = POk n fs -> safe s n).
Context (Htpl : forall name t, In (name, t) (rg_templates reg) -> SP (te_tpl t)).
Definition fine (en : env) : Prop := en_plat en = pl /\ en_reg en = reg.
Definition knot_np (K : knot) : Prop := forall en, fine en ->
  (forall src n tr, safe src n -> np T (k_node K en src n tr))
  /\ (forall src c, call_safe src c -> np T (k_call K en src c))
  /\ (forall src c, call_safe src c -> np T (k_stmt K en src c)).
Context (K : knot) (HK : knot_np K).

Lemma np_buffer en t : fine en -> SP t -> np T (buffer K en t).
Proof.
  intros He Ht st Hi. unfold buffer. assert (He' : fine (en_with_string en)) by exact He.
  pose proof (np_template K (en_with_string en) (proj1 (HK _ He')) t Ht (up_scopes (r_scopes st) (r_new (r_stack st))) (inv_new _ _)) as H.
  destruct (template_ K _ t _); try exact H; [split; [exact Hi | exact I] | exact Hi].
Qed.
Lemma np_once en f s d : fine en -> sound_source pl reg s -> (forall p, compile (pl_penv pl) (mkOpts f 0 0) s <> PPanic p) -> np T (once_ K en f s d).
Proof.
  intros He Hs Hc st Hi. unfold once_. cbv zeta. rewrite (proj1 He). destruct (compile _ _ s) as [n fs|e fs|p|] eqn:E.
  - assert (He' : fine (en_once en f d)) by exact He.
    pose proof (np_render K (en_once en f d) (proj1 (HK _ He')) (mkTpl s n) (Hsound _ _ _ _ Hs E) (r_new (r_stack st)) (inv_new _ [])) as H.
    destruct (render_ K _ _ _); try exact H; [split; [exact Hi | exact I] | exact Hi].
  - exact Hi.
  - exfalso. exact (Hc p eq_refl).
  - exact I.
Qed.
Lemma assoc_all {A} (P : A -> Prop) n l v : Forall (fun kv => P (snd kv)) l -> assoc n l = Some v -> P v.
Proof. intros H E. apply assoc_in in E. rewrite Forall_forall in H. exact (H _ E). Qed.

Lemma np_run en p : fine en -> calm pl reg own SP p -> np T (run K en p).
Proof.
  intros He. destruct (HK en He) as (HKn & HKc & HKs).
  induction p as [v|e| |t k IH|t k IH|t k IH|f s d k IH|t k IH|s e k IH|s k IH|s k IH|k IH|f k IH|s k IH|n h IHh k IH|n k IH|n k IH|k IH|k IH|s k IH|l s k IH];
    cbn [calm run]; intros Hc.
  - apply np_ret. exact I.
  - apply np_fail.
  - intros st Hi. split; [exact Hc | reflexivity].
  - destruct Hc as [Ht Hk]. eapply np_catch; [apply np_template; eassumption | |]; intros; apply IH, Hk.
  - destruct Hc as [Ht Hk]. eapply np_catch; [apply np_render; eassumption | |]; intros; apply IH, Hk.
  - destruct Hc as [Ht Hk]. eapply np_catch; [apply np_buffer; eassumption | |]; intros; apply IH, Hk.
  - destruct Hc as (Ht & Hp & Hk). eapply np_catch; [apply np_once; eassumption | |]; intros; apply IH, Hk.
  - destruct Hc as (Ht & Hk & Hk'). eapply np_catch; [eapply np_inverse; eassumption | |]; [intros a Ha; apply IH, Hk, Ha | intros; apply IH, Hk'].
  - eapply np_catch; [apply np_write | |]; intros; apply IH, Hc.
  - eapply np_catch; [apply np_emit | |]; intros; apply IH, Hc.
  - eapply (np_bind T); [upd_ok|]. intros _ _. apply IH, Hc.
  - apply np_get. intros st Hi. destruct (r_scopes st); [apply IH, Hc|]. eapply (np_bind T); [upd_ok|]. intros _ _. apply IH, Hc.
  - eapply (np_bind T); [|intros _ _; apply IH, Hc]. apply np_upd. intros st Hi. destruct (r_scopes st); exact Hi.
  - destruct Hc as [Hp Hk]. eapply np_catch; [eapply np_evaluate; [apply He | exact Hp] | |]; intros; apply IH, Hk.
  - destruct Hc as [Hh Hk]. eapply (np_bind T); [|intros _ _; apply IH, Hk]. apply np_upd. intros st [Hi1 Hi2].
    split; [|exact Hi2]. cbn [r_local up_local]. apply assoc_set_forall; [exact Hh | exact Hi1].
  - eapply (np_bind T); [|intros _ _; apply IH, Hc]. apply np_upd. intros st [Hi1 Hi2]. split; [|exact Hi2]. cbn [r_local up_local].
    clear -Hi1. induction Hi1 as [|[x y] l Hx Hl IHl]; [constructor|]. cbn [assoc_del]. destruct (streq n x); [exact IHl | constructor; [exact Hx | exact IHl]].
  - apply IH, Hc. rewrite (proj2 He). destruct (assoc n (rg_templates reg)) as [t|] eqn:E; [|exact I]. apply assoc_in in E. exact (Htpl _ _ E).
  - apply IH, Hc.
  - apply np_get. intros st Hi. apply IH, Hc.
  - apply IH, Hc.
  - apply IH, Hc.
Qed.

Context (Hreg : calm_registry pl reg own).
Lemma handed_SP : handed pl reg SP.
Proof.
  split.
  - intros src n m H Hin. exact (safe_inside src n m H Hin).
  - intros o s n fs Hs Hc. exact (Hsound o s n fs Hs Hc).
Qed.
Lemma calm_HC h : calm_helper pl reg own h -> HC h.
Proof. intros H c t Ht. exact (H SP handed_SP c t Ht). Qed.

Lemma np_invoke en src name tg c content text prop : fine en -> all_opt SP content ->
  Forall (param_safe src) (c_args c) -> Forall (fun kv => param_safe src (snd kv)) (c_params c) ->
  match tg with ByRef h => HC h | ByName _ => True end -> np T (invoke K en src name tg c content text prop).
Proof.
  intros He Hc Ha Hp Ht. destruct (HK en He) as (HKn & HKc & HKs). unfold invoke. cbv zeta. apply np_get. intros st0 _.
  destruct (stack_max <=? _); [apply np_fail|]. eapply (np_bind T); [upd_ok|]. intros _ _.
  eapply np_bind; [apply np_arguments; assumption|]. intros a _.
  eapply np_bind; [apply np_hash; [apply He | assumption | exact Htab | assumption]|]. intros h _.
  apply np_get. intros st [Hi1 Hi2]. eapply (np_bind T); [|intros v _; eapply (np_bind T); [upd_ok|]; intros _ _; apply np_ret; exact I].
  destruct tg as [n|f].
  - destruct (assoc n (r_local st)) as [f|] eqn:E1; [apply np_run; [exact He|]; apply (assoc_all HC _ _ _ Hi1 E1); exact Hc|].
    destruct (assoc n (rg_helpers (en_reg en))) as [f|] eqn:E2; [|apply np_ret; exact I].
    apply np_run; [exact He|]. rewrite (proj2 He) in E2. apply assoc_in in E2. apply calm_HC; [|exact Hc]. exact (proj1 Hreg _ _ E2).
  - apply np_run; [exact He|]. apply Ht, Hc.
Qed.
Lemma np_resolve en src p : path_safe src p -> np T (resolve en src p).
Proof.
  intros H. unfold resolve. eapply np_bind; [apply np_lookup, H|]. intros [v|] _; [apply np_ret; exact I|].
  destruct (rg_strict (en_reg en)); [|apply np_ret; exact I]. need_ok; [apply H|]. apply np_fail.
Qed.
Lemma np_call en src c : fine en -> call_safe src c -> np T (call_ K en src c).
Proof.
  intros He Hc. pose proof (call_parts _ _ Hc) as (_ & _ & _ & Ht & Ha & Hp). destruct (HK en He) as (HKn & HKc & HKs).
  unfold call_. destruct (c_target c) as [p|sub]; cbn [target_safe] in Ht; [|apply HKc, Ht].
  destruct (pa_explicit p); [apply np_lookup, Ht|]. destruct (path_is_simple p); [|apply np_resolve, Ht].
  need_ok; [apply Ht|]. apply np_get. intros st _. destruct (has_helper en _ st); [apply np_invoke; try assumption; exact I|].
  eapply np_bind; [apply np_lookup, Ht|]. intros [v|] _; [apply np_ret; exact I|]. rewrite (proj2 He).
  destruct (rg_missing reg) as [h|] eqn:Em.
  - apply np_invoke; try assumption; [exact I|]. apply calm_HC. apply (proj1 (proj2 (proj2 Hreg))), Em.
  - destruct (rg_strict reg); [apply np_fail | apply np_ret; exact I].
Qed.
Lemma np_partial_name en src c : fine en -> call_safe src c -> np T (get_partial_name K en src c).
Proof.
  intros He Hc. pose proof (call_parts _ _ Hc) as (_ & _ & _ & Ht & _). destruct (HK en He) as (HKn & HKc & HKs).
  unfold get_partial_name. destruct (c_target c) as [p|sub]; cbn [target_safe] in Ht.
  - need_ok; [apply Ht|]. destruct (streq _ _); [apply np_ret; exact I|]. destruct (path_is_simple p); [apply np_ret; exact I | apply np_fail].
  - eapply np_bind; [apply HKs, Ht|]. intros v _. apply np_ret. exact I.
Qed.
Lemma np_partial en src c pb : fine en -> call_safe src c -> all_opt SP pb -> np T (render_partial K en src c pb).
Proof.
  intros He Hc Hb. pose proof (call_parts _ _ Hc) as (_ & _ & _ & _ & Ha & Hp). destruct (HK en He) as (HKn & HKc & HKs).
  unfold render_partial. eapply np_bind; [apply np_partial_name; assumption|]. intros name _. apply np_get. intros st0 _.
  destruct (existsb _ _); [apply np_fail|]. eapply (np_bind T); [upd_ok|]. intros _ _.
  eapply (np_bind T).
  { destruct pb as [t|]; [|apply np_ret; exact I]. apply np_upd. intros st [Hi1 Hi2]. split; [exact Hi1|].
    cbn [r_partials up_partials]. apply assoc_set_forall; assumption. }
  intros _ _. apply np_get. intros st Hi. eapply (np_bind SP).
  { destruct (assoc name (r_partials st)) as [t|] eqn:E1; [apply np_ret; exact (assoc_all SP _ _ _ (proj2 Hi) E1)|].
    destruct (assoc name (rg_templates (en_reg en))) as [te|] eqn:E2; [|apply np_fail].
    eapply (np_bind T); [upd_ok|]. intros _ _. apply np_ret. rewrite (proj2 He) in E2. apply assoc_in in E2. exact (Htpl _ _ E2). }
  intros t Ht. eapply np_bind; [apply np_hash; [apply He | assumption | exact Htab | assumption]|]. intros h _.
  eapply (np_bind T).
  { destruct (c_args c) as [|x xs] eqn:Ea; [apply np_ret; exact I|]. rewrite <- Ea in *. eapply np_bind; [apply np_arguments; assumption|].
    intros a _. destruct (fst a); apply np_ret; exact I. }
  intros sc _. eapply (np_bind T); [upd_ok|]. intros _ _. apply np_get. intros st1 _.
  eapply np_bind; [apply np_iter; [|apply safe_children, Ht]; intros n tr a b Hn; apply HKn, Hn|]. intros _ _.
  eapply (np_bind T); [upd_ok|]. intros _ _. eapply (np_bind T); [upd_ok|]. intros _ _. upd_ok.
Qed.
Lemma np_stmt en src c : fine en -> call_safe src c -> np T (stmt_ K en src c).
Proof.
  intros He Hc. unfold stmt_. destruct (c_partial c); [|apply np_call; assumption].
  eapply np_bind; [apply np_partial; try assumption; exact I|]. intros; apply np_ret; exact I.
Qed.
Lemma np_block_missing en t c text raw : fine en -> SP t -> call_safe (tp_src t) c -> np T (block_missing K en t c text raw).
Proof.
  intros He Hs Hc. pose proof (call_parts _ _ Hc) as (_ & _ & _ & Ht & Ha & Hp). destruct (HK en He) as (HKn & HKc & HKs).
  unfold block_missing. cbv zeta. destruct raw; [destruct text; [apply np_writet | apply np_ret; exact I]|].
  destruct (c_target c) as [p|sub]; cbn [target_safe] in Ht; [|apply np_ret; exact I].
  eapply np_bind; [apply np_lookup, Ht|]. rewrite (proj2 He). intros [v|] _.
  - destruct (rg_block_missing reg) as [h|] eqn:Em; [|apply np_template; assumption]. need_ok; [apply Ht|].
    eapply np_bind; [apply np_invoke; try assumption; apply calm_HC; apply (proj2 (proj2 (proj2 Hreg))), Em|]. intros; apply np_ret; exact I.
  - destruct (rg_missing reg) as [h|] eqn:Em.
    + eapply np_bind; [apply np_invoke; try assumption; [exact I|]; apply calm_HC; apply (proj1 (proj2 (proj2 Hreg))), Em|]. intros; apply np_ret; exact I.
    + destruct (rg_strict reg); [|apply np_ret; exact I]. need_ok; [apply Ht|]. apply np_fail.
Qed.
Lemma np_raw_text src b : block_safe src b -> b_raw b = true -> np T (raw_text src b).
Proof.
  intros (H1 & H2 & H3 & H4) Hr. specialize (H4 Hr). unfold raw_text. eapply (np_bind T).
  { destruct (b_nodes b); [apply np_ret; exact I|]. eapply np_T, np_need, H4. }
  intros s _. need_ok; [exact H2|]. need_ok; [exact H1|]. eapply (np_bind T); [upd_ok|]. intros; apply np_ret; exact I.
Qed.
Lemma np_block en src b : fine en -> safe src (NBlock b) -> np T (block_ K en src b).
Proof.
  intros He Hs. pose proof (safe_block _ _ Hs) as Hb. pose proof Hb as (H1 & H2 & Hc & H4).
  pose proof (call_parts _ _ Hc) as (_ & _ & _ & Ht & Ha & Hp). unfold block_. cbv zeta.
  destruct (c_partial (b_call b)); [apply np_partial; assumption|].
  destruct (c_target (b_call b)) as [p|sub]; cbn [target_safe] in Ht; [|apply np_fail].
  destruct (path_is_simple p); [|need_ok; [apply Ht|]; apply np_fail].
  eapply (np_bind T).
  { destruct (b_raw b) eqn:Er; [|apply np_ret; exact I]. eapply np_bind; [apply np_raw_text; assumption|]. intros; apply np_ret; exact I. }
  intros text _. need_ok; [apply Ht|]. apply np_get. intros st _. destruct (has_helper en _ st).
  - eapply np_bind; [apply np_invoke; try assumption; exact I|]. intros; apply np_ret; exact I.
  - apply np_block_missing; assumption.
Qed.
Lemma np_node_body en src n : fine en -> safe src n -> np T (node_body K en src n).
Proof.
  intros He Hs. destruct (HK en He) as (HKn & HKc & HKs). destruct n as [l|t|c|b|t|t|t|l]; cbn [node_body]; try (apply np_ret; exact I).
  - apply safe_leaf in Hs; [|reflexivity]. need_ok; [exact Hs|]. apply np_writet.
  - apply safe_leaf in Hs; [|reflexivity]. cbn [leaf_safe] in Hs. eapply np_bind; [apply HKs, Hs|]. intros [v|] _; [|apply np_ret; exact I].
    need_ok; [|apply np_writet]. apply call_parts in Hs. destruct Hs as (H1 & _). unfold call_is_escaped. destruct (call_open_str src c); [discriminate | congruence].
  - apply np_block; assumption.
  - apply safe_leaf in Hs; [|reflexivity]. cbn [leaf_safe] in Hs. destruct Hs as (s & E & Hsl). rewrite E. eapply np_bind; [apply np_need; discriminate|].
    intros s' Es. injection Es as <-. need_ok; [exact Hsl|]. apply np_writet.
  - apply safe_leaf in Hs; [|reflexivity]. cbn [leaf_safe] in Hs. destruct (link_is_escaped src l) as [[|]|] eqn:El; [| |contradiction].
    + eapply np_bind; [apply np_need; discriminate|]. intros e Ee. injection Ee as <-. need_ok; [exact Hs|]. apply np_writet.
    + eapply np_bind; [apply np_need; discriminate|]. intros e Ee. injection Ee as <-. destruct Hs as [Hs Hh].
      rewrite (proj1 He), (proj2 He). assert (Hw : np T (let* s := need (link_str src l) in write_str en s false;; ret tt)) by (need_ok; [exact Hs|]; apply np_writet).
      destruct (pl_links pl) eqn:E1; [|exact Hw]. destruct (rg_link reg) as [h|] eqn:E2; [|exact Hw].
      destruct Hh as (P1 & P2 & P3); [split; [exact E1 | rewrite E2; discriminate]|].
      unfold link_. need_ok; [exact P1|]. need_ok; [exact P2|]. need_ok; [exact P3|].
      eapply np_bind; [apply np_invoke; try assumption; try exact I|intros; apply np_ret; exact I].
      * repeat constructor.
      * constructor.
      * apply calm_HC. apply (proj1 (proj2 Hreg)), E2.
Qed.
Lemma np_node en src n tr : fine en -> safe src n -> np T (node_ K en src n tr).
Proof.
  intros He Hs. unfold node_. eapply (np_bind T); [upd_ok|]. intros _ _. need_ok; [apply safe_trim, Hs|].
  eapply (np_bind T); [upd_ok|]. intros _ _. eapply (np_bind T); [|intros _ _; apply np_node_body; assumption].
  apply np_upd. intros st Hi. destruct (r_end st) as [e|]; [|exact Hi]. destruct (th_after e); exact Hi.
Qed.
End Run.

Theorem np_tie : (forall src c, Permutation (pl_order pl src c) (c_params c)) ->
  (forall o s n fs, sound_source pl reg s -> compile (pl_penv pl) o s = POk n fs -> safe s n) ->
  (forall name t, In (name, t) (rg_templates reg) -> SP (te_tpl t)) -> calm_registry pl reg own ->
  forall n, knot_np (tie n).
Proof.
  intros H1 H2 H3 H4. induction n as [|n IH]; intros en He; cbn [tie k_node k_call k_stmt].
  - repeat split; intros; intros st Hi; exact I.
  - split; [|split].
    + intros src x tr Hx. apply np_node; assumption.
    + intros src c Hc. apply np_call; assumption.
    + intros src c Hc. apply np_stmt; assumption.
Qed.
End NoPanic.
