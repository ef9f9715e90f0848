(** * Props_Nested: templates rendered from inside a helper (C84). *)
From Coq Require Import Lia String.
From Verif Require Import Str Lexer Json Ast ErrInfo Parser Messages Render Helpers Registry Tests StrFacts Spec_Lexer Spec_Values ValueFacts Spec_Helpers LookupFacts
  Spec_Render Spec_Blocks Spec_Calls CycleFacts HashFacts Props_Values Props_Blocks Spec_Source SynBlock SynLayout Props_Source Spec_Sem SemFacts SemItems Props_Sem Spec_Fail FailFacts FailItems Props_Fail Spec_Nested NestedFacts.
Open Scope nat_scope. Open Scope list_scope.

(** ** The rendering of a document from any calls in progress *)
Lemma doc_template K en s ns st :
  template_ K en (mkTpl s (NDoc ns)) st = (iter_nodes s (step K en s false false) None (r_hint st) ns ;; upd (up_end None)) st.
Proof.
  unfold template_. cbn [tp_src tp_node children]. rewrite bind_get. unfold bind at 1.
  erewrite iter_ext with (g := step K en s false false).
  - unfold bind. destruct (iter_nodes s _ None (r_hint st) ns st) as [[] s'|e s'|p|]; try reflexivity. destruct ns; reflexivity.
  - intros n [x y] f l s'. unfold step. unfold bind, need, ret, node_trim. cbn. destruct f, l; cbn; rewrite ?orb_false_r; reflexivity.
Qed.
Section At.
Variables (w : world) (en : env).
Hypothesis Ep : en_plat en = w_plat w.
Hypothesis Er : en_reg en = w_reg w.
Hypothesis Ed : en_root en = w_data w.
Hypothesis Hw : forall h s, exists n, en_write en h s = WOk n.
Hypothesis Hf : fits w.
Lemma doc_out b scs act pb d s ns out : Forall2 (node_is Loose (pl_penv (w_plat w)) s) ns d -> Forall (regular w) d -> items_out w scs act None pb b false d out ->
  exists N, forall k st, N <= k -> at_state scs act st -> r_partials st = [] -> opt_after (r_hint st) || end_after st = b ->
  exists st', iter_nodes s (step (tie k) en s false false) None (r_hint st) ns st = ROk tt st' /\ at_state scs act st' /\ concat (r_out st') = concat (r_out st) ++ out.
Proof.
  intros Hn Hr Ho. destruct (out_runs w en Ep Er Ed Hw Hf) as (_ & G & _). destruct (G _ _ _ _ _ _ _ _ Ho s ns false Hn Hr ltac:(discriminate) [] eq_refl) as (N & ppl & _ & HN).
  exists N. intros k st Hk H1 H2 H3. destruct (HN k st None (r_hint st) Hk H1 H2 ltac:(congruence)) as (st' & E & M & _); [intros _; cbn; exact H3|].
  exists st'. split; [exact E|]. destruct M as (M1 & _ & M3). split; [exact M1|exact M3].
Qed.
Lemma doc_err b scs act d s ns out err : Forall2 (node_is Loose (pl_penv (w_plat w)) s) ns d -> Forall (regular w) d -> items_err w (en_name en) scs act None b false d out err ->
  exists N, forall k st, N <= k -> at_state scs act st -> r_partials st = [] -> opt_after (r_hint st) || end_after st = b ->
  exists st', iter_nodes s (step (tie k) en s false false) None (r_hint st) ns st = stopped err st' /\ concat (r_out st') = concat (r_out st) ++ out.
Proof.
  intros Hn Hr Ho. destruct (err_runs w en Ep Er Ed Hw Hf) as (_ & G & _). destruct (G _ _ _ _ _ _ _ _ Ho s ns false Hn Hr ltac:(discriminate) [] eq_refl) as (N & HN).
  exists N. intros k st Hk H1 H2 H3. destruct (HN k st None (r_hint st) Hk H1 H2 ltac:(congruence)) as (st' & E & M); [intros _; cbn; exact H3|]. exists st'. split; [exact E|exact M].
Qed.
End At.

(** ** [rc.once(file, content, data)] *)
(** where the document writes [out], with the calls that are in progress, the helper gets that text, and nothing else happens; [Registry::once] answers the same *)
Theorem C84_once : forall en st file s data docs d pb out, let w := mkWorld (en_plat en) (en_reg en) data docs in
  fits w -> doc_ok (pl_penv (en_plat en)) d -> doc_writes Loose d s -> Forall (regular w) d ->
  items_out w [] (r_stack st) None pb false false d out ->
  exists N, forall fuel, N <= fuel ->
    (forall k, run (tie fuel) en (HOnce file s data k) st = run (tie fuel) en (k (HOk out)) st)
    /\ registry_once fuel (en_plat en) (en_reg en) file s data = AOk out.
Proof.
  intros en st file s data docs d pb out w Hf Hd Hs Hr Ho. destruct (compile_printed Loose (pl_penv (en_plat en)) (mkOpts file 0 0) d s Hd Hs) as (ns & fs & E & Hn).
  destruct (doc_out w (en_once en file data) eq_refl eq_refl eq_refl ltac:(intros; eexists; reflexivity) Hf false [] (r_stack st) pb d s ns out Hn Hr Ho) as (N & HN).
  destruct (C55_once (en_plat en) (en_reg en) data docs d s pb out file Hf Hd Hs Hr (proj1 (proj2 (out_few w)) _ _ _ _ _ _ _ _ Ho [] (fewer_nil _))) as (N' & HN').
  exists (N + N'). intros fuel Hfu. split; [|apply HN'; lia]. intros k. cbn [run]. unfold mcatch, once_. rewrite E.
  destruct (HN fuel (r_new (r_stack st)) ltac:(lia) ltac:(repeat split) eq_refl eq_refl) as (st' & E1 & _ & E2).
  unfold render_. cbn [tp_src tp_node children]. rewrite plain_step. cbn [r_hint r_new] in E1. rewrite E1, E2. reflexivity.
Qed.
Print Assumptions C84_once.
(** where it stops with an error, the helper gets the message of that error, which [Registry::once] answers too unless too many calls are in progress;
    where a helper in it panics, rendering panics *)
Theorem C84_once_fails : forall en st file s data docs d out err, let w := mkWorld (en_plat en) (en_reg en) data docs in
  fits w -> doc_ok (pl_penv (en_plat en)) d -> doc_writes Loose d s -> Forall (regular w) d ->
  items_err w file [] (r_stack st) None false false d out err ->
  exists N, forall fuel, N <= fuel ->
    (forall k, run (tie fuel) en (HOnce file s data k) st =
       match err with Fails e => run (tie fuel) en (k (HErr (EMessage (rerr_msg (pl_iotext (en_plat en)) e)))) st | Panics => RPanic PanUnwrap end)
    /\ (cyclic err \/ registry_once fuel (en_plat en) (en_reg en) file s data = answer err).
Proof.
  intros en st file s data docs d out err w Hf Hd Hs Hr Ho. destruct (compile_printed Loose (pl_penv (en_plat en)) (mkOpts file 0 0) d s Hd Hs) as (ns & fs & E & Hn).
  destruct (doc_err w (en_once en file data) eq_refl eq_refl eq_refl ltac:(intros; eexists; reflexivity) Hf false [] (r_stack st) d s ns out err Hn Hr Ho) as (N & HN).
  assert (exists N', forall fuel, N' <= fuel -> cyclic err \/ registry_once fuel (en_plat en) (en_reg en) file s data = answer err) as (N' & HN').
  { destruct (proj1 (proj2 (err_few w file)) _ _ _ _ _ _ _ _ Ho [] (fewer_nil _)) as [C|C]; [exists 0; auto|].
    destruct (C64_once (en_plat en) (en_reg en) data docs d s out err file Hf Hd Hs Hr C) as (N' & HN'). exists N'. auto. }
  exists (N + N'). intros fuel Hfu. split; [|apply HN'; lia]. intros k. cbn [run]. unfold mcatch, once_. rewrite E.
  destruct (HN fuel (r_new (r_stack st)) ltac:(lia) ltac:(repeat split) eq_refl eq_refl) as (st' & E1 & _).
  unfold render_. cbn [tp_src tp_node children]. rewrite plain_step. cbn [r_hint r_new] in E1. rewrite E1. destruct err; reflexivity.
Qed.
Print Assumptions C84_once_fails.
(** a content that does not compile: the message of the syntax error *)
Theorem C84_once_syntax : forall fuel en st file s data e k,
  template_compile (en_plat en) (mkOpts file 0 0) s = AErr (XSyntax e) ->
  run (tie fuel) en (HOnce file s data k) st = run (tie fuel) en (k (HErr (EMessage (rerr_msg (pl_iotext (en_plat en)) (ESyntax e))))) st.
Proof.
  intros fuel en st file s data e k H. unfold template_compile in H. cbn [run]. unfold mcatch, once_. destruct (compile _ _ _); try discriminate H. injection H as ->. reflexivity.
Qed.
Print Assumptions C84_once_syntax.

(** ** [rc.buffer(template)] and [rc.template(template)] with a template of the registry: in the scopes and with the data of the helper *)
Theorem C84_buffer : forall en st docs n d te pb out, let w := mkWorld (en_plat en) (en_reg en) (en_root en) docs in
  fits w -> assoc n docs = Some d -> assoc n (rg_templates (en_reg en)) = Some te ->
  items_out w (r_scopes st) (r_stack st) None pb false false d out ->
  exists N, forall fuel k, N <= fuel -> run (tie fuel) en (HBuffer (te_tpl te) k) st = run (tie fuel) en (k (HOk out)) st.
Proof.
  intros en st docs n d te pb out w Hf Ha Ht Ho. destruct (fit_docs w Hf n d Ha) as (Dok & Dreg & _ & te' & o & s & T1 & T2 & T3). cbn in T1. rewrite Ht in T1. injection T1 as <-.
  destruct (compiled w o d s te Dok T2 T3) as (ns & Ete & Hn).
  destruct (doc_out w (en_with_string en) eq_refl eq_refl eq_refl ltac:(intros; eexists; reflexivity) Hf false (r_scopes st) (r_stack st) pb d s ns out Hn Dreg Ho) as (N & HN).
  exists N. intros fuel k Hfu. cbn [run]. unfold mcatch, buffer. rewrite Ete, doc_template.
  destruct (HN fuel (up_scopes (r_scopes st) (r_new (r_stack st))) Hfu ltac:(repeat split) eq_refl eq_refl) as (st' & E1 & _ & E2).
  unfold bind. rewrite E1. cbn. rewrite E2. reflexivity.
Qed.
Print Assumptions C84_buffer.
Theorem C84_buffer_fails : forall en st docs n d te out err, let w := mkWorld (en_plat en) (en_reg en) (en_root en) docs in
  fits w -> assoc n docs = Some d -> assoc n (rg_templates (en_reg en)) = Some te ->
  items_err w (en_name en) (r_scopes st) (r_stack st) None false false d out err ->
  exists N, forall fuel k, N <= fuel -> run (tie fuel) en (HBuffer (te_tpl te) k) st =
    match err with Fails e => run (tie fuel) en (k (HErr e)) st | Panics => RPanic PanUnwrap end.
Proof.
  intros en st docs n d te out err w Hf Ha Ht Ho. destruct (fit_docs w Hf n d Ha) as (Dok & Dreg & _ & te' & o & s & T1 & T2 & T3). cbn in T1. rewrite Ht in T1. injection T1 as <-.
  destruct (compiled w o d s te Dok T2 T3) as (ns & Ete & Hn).
  destruct (doc_err w (en_with_string en) eq_refl eq_refl eq_refl ltac:(intros; eexists; reflexivity) Hf false (r_scopes st) (r_stack st) d s ns out err Hn Dreg Ho) as (N & HN).
  exists N. intros fuel k Hfu. cbn [run]. unfold mcatch, buffer. rewrite Ete, doc_template.
  destruct (HN fuel (up_scopes (r_scopes st) (r_new (r_stack st))) Hfu ltac:(repeat split) eq_refl eq_refl) as (st' & E1 & E2).
  unfold bind. rewrite E1. destruct err; reflexivity.
Qed.
Print Assumptions C84_buffer_fails.
(** directly to the output: the text is added to it, the scopes and the calls in progress stay; a [~] after the tag that called the helper strips the start *)
Theorem C84_template : forall en st docs n d te pb out, let w := mkWorld (en_plat en) (en_reg en) (en_root en) docs in
  fits w -> assoc n docs = Some d -> assoc n (rg_templates (en_reg en)) = Some te ->
  (forall h s, exists k, en_write en h s = WOk k) -> r_local st = [] -> r_partials st = [] -> r_end st = None ->
  items_out w (r_scopes st) (r_stack st) None pb (match r_hint st with Some h => th_after h | None => false end) false d out ->
  exists N, forall fuel k, N <= fuel -> exists st', run (tie fuel) en (HTemplate (te_tpl te) k) st = run (tie fuel) en (k (HOk tt)) st'
    /\ concat (r_out st') = concat (r_out st) ++ out /\ r_scopes st' = r_scopes st /\ r_stack st' = r_stack st /\ r_local st' = [].
Proof.
  intros en st docs n d te pb out w Hf Ha Ht Hw L1 L2 L3 Ho. destruct (fit_docs w Hf n d Ha) as (Dok & Dreg & _ & te' & o & s & T1 & T2 & T3). cbn in T1. rewrite Ht in T1. injection T1 as <-.
  destruct (compiled w o d s te Dok T2 T3) as (ns & Ete & Hn).
  destruct (doc_out w en eq_refl eq_refl eq_refl Hw Hf _ (r_scopes st) (r_stack st) pb d s ns out Hn Dreg Ho) as (N & HN).
  exists N. intros fuel k Hfu. cbn [run]. unfold mcatch. rewrite Ete, doc_template.
  destruct (HN fuel st Hfu ltac:(repeat split; assumption) L2) as (st' & E1 & (F1 & F2 & F3) & E2); [unfold end_after; rewrite L3; apply orb_false_r|].
  unfold bind. rewrite E1. exists (up_end None st'). split; [reflexivity|]. repeat split; assumption.
Qed.
Print Assumptions C84_template.
Theorem C84_template_fails : forall en st docs n d te out err, let w := mkWorld (en_plat en) (en_reg en) (en_root en) docs in
  fits w -> assoc n docs = Some d -> assoc n (rg_templates (en_reg en)) = Some te ->
  (forall h s, exists k, en_write en h s = WOk k) -> r_local st = [] -> r_partials st = [] -> r_end st = None ->
  items_err w (en_name en) (r_scopes st) (r_stack st) None (match r_hint st with Some h => th_after h | None => false end) false d out (Fails err) ->
  exists N, forall fuel k, N <= fuel -> exists st', run (tie fuel) en (HTemplate (te_tpl te) k) st = run (tie fuel) en (k (HErr err)) st'
    /\ concat (r_out st') = concat (r_out st) ++ out.
Proof.
  intros en st docs n d te out err w Hf Ha Ht Hw L1 L2 L3 Ho. destruct (fit_docs w Hf n d Ha) as (Dok & Dreg & _ & te' & o & s & T1 & T2 & T3). cbn in T1. rewrite Ht in T1. injection T1 as <-.
  destruct (compiled w o d s te Dok T2 T3) as (ns & Ete & Hn).
  destruct (doc_err w en eq_refl eq_refl eq_refl Hw Hf _ (r_scopes st) (r_stack st) d s ns out _ Hn Dreg Ho) as (N & HN).
  exists N. intros fuel k Hfu. cbn [run]. unfold mcatch. rewrite Ete, doc_template.
  destruct (HN fuel st Hfu ltac:(repeat split; assumption) L2) as (st' & E1 & E2); [unfold end_after; rewrite L3; apply orb_false_r|].
  unfold bind. rewrite E1. exists st'. split; [reflexivity|exact E2].
Qed.
Print Assumptions C84_template_fails.

(** [rc.render(template)] does the same, but the tag that called the helper does not strip anything *)
Theorem C84_render : forall en st docs n d te pb out, let w := mkWorld (en_plat en) (en_reg en) (en_root en) docs in
  fits w -> assoc n docs = Some d -> assoc n (rg_templates (en_reg en)) = Some te ->
  (forall h s, exists k, en_write en h s = WOk k) -> r_local st = [] -> r_partials st = [] -> r_end st = None ->
  items_out w (r_scopes st) (r_stack st) None pb false false d out ->
  exists N, forall fuel k, N <= fuel -> exists st', run (tie fuel) en (HRender (te_tpl te) k) st = run (tie fuel) en (k (HOk tt)) st'
    /\ concat (r_out st') = concat (r_out st) ++ out /\ r_scopes st' = r_scopes st /\ r_stack st' = r_stack st /\ r_local st' = [].
Proof.
  intros en st docs n d te pb out w Hf Ha Ht Hw L1 L2 L3 Ho. destruct (fit_docs w Hf n d Ha) as (Dok & Dreg & _ & te' & o & s & T1 & T2 & T3). cbn in T1. rewrite Ht in T1. injection T1 as <-.
  destruct (compiled w o d s te Dok T2 T3) as (ns & Ete & Hn).
  destruct (out_runs w en eq_refl eq_refl eq_refl Hw Hf) as (_ & G & _). destruct (G _ _ _ _ _ _ _ _ Ho s ns false Hn Dreg ltac:(discriminate) [] eq_refl) as (N & ppl & _ & HN).
  exists N. intros fuel k Hfu. cbn [run]. unfold mcatch, render_. rewrite Ete. cbn [tp_src tp_node children]. rewrite plain_step.
  destruct (HN fuel st None None Hfu ltac:(repeat split; assumption) L2 ltac:(congruence)) as (st' & E1 & ((F1 & F2 & F3) & _ & E2) & _); [intros _; unfold end_after; rewrite L3; reflexivity|].
  rewrite E1. exists st'. split; [reflexivity|]. repeat split; assumption.
Qed.
Print Assumptions C84_render.

(** ** A helper that renders its argument, with data of its own *)
Definition inline : helper := fun ctx _ =>
  match hc_args ctx with
  | JStr s :: _ => HOnce (lit "inner") s (JObj [(lit "x", JStr (lit "<"))]) (htry (fun o => HOut o (htry (fun _ => HRet None))))
  | _ => HRet None
  end.
Definition inline_reg : registry := helper_insert (lit "inline") inline reg0.
Definition inline_doc : list item := [IText (lit "a"); show "x"; IText (lit "b")].
Definition with_p (src : str) : registry := ins (lit "p") src inline_reg.
Definition t_is (s : str) : json := JObj [(lit "t", JStr s)].
Definition p_te : template := match template_compile pl0 (mkOpts (lit "p") 0 0) (doc_text inline_doc) with AOk te => te | _ => mkTemplate [] (NDoc []) None end.
Definition p_reg : registry := mkReg (rg_helpers inline_reg) None None None [(lit "p", p_te)] (rg_escape inline_reg) false.
Definition one_of (r : registry) : Prop := r = inline_reg \/ r = p_reg.
Lemma one_escape r : one_of r -> written (rg_escape r) (lit "<") = lit "&lt;".
Proof. intros [->| ->]; vm_compute; reflexivity. Qed.
Lemma one_helpers r : one_of r -> assoc (lit "x") (rg_helpers r) = None.
Proof. intros [->| ->]; vm_compute; reflexivity. Qed.
Lemma inline_means r data act docs scs : one_of r -> path_value data scs (HdName (lit "x")) [] (JStr (lit "<")) ->
  items_out (mkWorld pl0 r data docs) scs act None None false false inline_doc (lit "a" ++ lit "&lt;" ++ lit "b" ++ []).
Proof.
  intros He Hx. unfold inline_doc, show, var.
  eapply out_cons; [constructor; apply stripped_none|]. eapply out_cons; [|eapply out_cons; [constructor; apply stripped_none|apply out_nil]].
  rewrite <- (one_escape r He). eapply (io_value (mkWorld pl0 r data docs) scs act None _ _ false); [|constructor|apply stripped_none].
  apply cv_variable; [|exact Hx]. intros n (_ & -> & _). exact (one_helpers r He).
Qed.
Lemma inline_ok : doc_ok pe0 inline_doc.
Proof. unfold doc_ok, inline_doc, show, var. ok_items. Qed.
Lemma inline_regular w : Forall (regular w) inline_doc.
Proof. repeat (apply Forall_cons; [constructor|]). apply Forall_nil. Qed.
Lemma p_te_is : template_compile pl0 (mkOpts (lit "p") 0 0) (doc_text inline_doc) = AOk p_te.
Proof. vm_compute. reflexivity. Qed.
Lemma p_fits data : fits (mkWorld pl0 p_reg data [(lit "p", inline_doc)]).
Proof.
  split; [intros src c; apply Permutation_refl|]. intros n d H. cbn [assoc w_docs] in H. destruct (streq n (lit "p")) eqn:E; [|discriminate H]. injection H as <-.
  split; [exact inline_ok|]. split; [apply inline_regular|]. split.
  { intros l c m s m' X. apply (f_equal (@rev _)) in X. rewrite rev_app_distr in X. discriminate X. }
  apply streq_eq in E. subst n. exists p_te, (mkOpts (lit "p") 0 0), (doc_text inline_doc). split; [reflexivity|]. split; [apply (doc_canon pe0); exact inline_ok|exact p_te_is].
Qed.
Lemma x_field v : follow (JObj [(lit "x", v)]) [lit "x"] v.
Proof. apply follow_one. apply (has_member []). intros []. Qed.
Example C84_nonvacuous :
  (forall en st, en_plat en = pl0 -> en_reg en = inline_reg -> exists N, forall fuel, N <= fuel ->
     (forall k, run (tie fuel) en (HOnce (lit "inner") (lit "a{{x}}b") (JObj [(lit "x", JStr (lit "<"))]) k) st = run (tie fuel) en (k (HOk (lit "a&lt;b"))) st)
     /\ registry_once fuel (en_plat en) (en_reg en) (lit "inner") (lit "a{{x}}b") (JObj [(lit "x", JStr (lit "<"))]) = AOk (lit "a&lt;b"))
  /\ (forall en st, en_plat en = pl0 -> en_reg en = p_reg -> r_scopes st = [mkScope (Some (JObj [(lit "x", JStr (lit "<"))])) []] ->
     exists N, forall fuel k, N <= fuel -> run (tie fuel) en (HBuffer (te_tpl p_te) k) st = run (tie fuel) en (k (HOk (lit "a&lt;b"))) st)
  /\ once inline_reg (lit "[{{inline t}}]") (t_is (lit "a{{x}}b")) = AOk (lit "[a&lt;b]")
  /\ once p_reg (lit "[{{inline t}}]") (t_is (lit "<{{> p}}>")) = AOk (lit "[<a&lt;b>]")
  /\ once (with_p (lit "{{inline t}}")) (lit "{{> p}}") (t_is (lit "a{{> p}}b")) = AErr (XRender (EMessage (lit "Cycle detected whilst processing partial 'p'"))).
Proof.
  split; [|split].
  - intros en st E1 E2. pose proof (C84_once en st (lit "inner") (lit "a{{x}}b") (JObj [(lit "x", JStr (lit "<"))]) [] inline_doc None (lit "a&lt;b")) as T. rewrite E1, E2 in *. apply T.
    + apply alone_fits. intros src c. apply Permutation_refl.
    + exact inline_ok.
    + exact (doc_canon pe0 _ _ inline_ok).
    + apply inline_regular.
    + apply (inline_means inline_reg); [now left|]. apply pv_name, visible_data, x_field.
  - intros en st E1 E2 E3. pose proof (C84_buffer en st [(lit "p", inline_doc)] (lit "p") inline_doc p_te None (lit "a&lt;b")) as T. rewrite E1, E2, E3 in T. apply T.
    + apply p_fits.
    + reflexivity.
    + reflexivity.
    + apply (inline_means p_reg); [now right|]. apply pv_name, visible_here. right. split; [intros x X; vm_compute in X; inversion X as [a b c Y|a b c d e Y]; inversion Y as [pre k v post _ Z|]; destruct pre; discriminate|].
      eexists. split; [reflexivity|apply x_field].
  - repeat split; vm_compute; reflexivity.
Qed.
