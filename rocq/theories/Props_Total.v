(** * Props_Total: rendering always comes to an outcome, and the source semantics decides which (C65). *)
From Coq Require Import Lia String.
From Verif Require Import Str Regex Lexer Json Ast ErrInfo Parser Messages Render Helpers Registry Tests StrFacts RegexFacts Spec_Lexer Spec_Values ValueFacts Spec_Helpers
  LookupFacts Spec_Render Spec_Blocks Spec_Calls TermFacts CycleFacts HashFacts BuiltinFacts Props_Values Props_Blocks Props_Calls Spec_Source SynBlock SynLayout Props_Source Spec_Sem SemFacts SemItems Props_Sem
  Spec_Fail FailFacts FailItems Props_Fail Spec_Total TotalFacts.
Open Scope nat_scope. Open Scope list_scope.

(** ** C65 *)
(** the semantics leaves nothing open: a document has a text, or it stops *)
Theorem C65_total : forall w name d, fits w -> closed w -> doc_ok (pl_penv (w_plat w)) d -> Forall (tame w) d ->
  (exists pb out, items_out w [] [] None pb false false d out) \/ (exists out err, items_err w name [] [] None false false d out err).
Proof.
  intros w name d Hf Hc Hd Ht. destruct (total w name Hf Hc d [] None false false []) as [(pb & out & _ & H)|H]; [split; [exact (ok_all _ _ _ _ Hd)|exact Ht]|intros x X; discriminate X|left; eauto|right; exact H].
Qed.
(** what [Registry::once] answers, given enough steps *)
Definition answers (pl : plat) (reg : registry) (data : json) (name src : str) (r : ares str) : Prop :=
  exists N, forall fuel, N <= fuel -> registry_once fuel pl reg name src data = r.
Lemma answers_one pl reg data name src r r' : answers pl reg data name src r -> answers pl reg data name src r' -> r = r'.
Proof. intros (N & H) (N' & H'). rewrite <- (H (N + N')), <- (H' (N + N')) by lia. reflexivity. Qed.
(** a text exactly when the semantics says so, an error exactly when the semantics says so, a panic exactly when the semantics says so; and always one of them *)
Theorem C65_once : forall pl reg data docs d s name, let w := mkWorld pl reg data docs in
  fits w -> closed w -> doc_ok (pl_penv pl) d -> doc_writes Loose d s -> Forall (regular w) d -> Forall (tame w) d ->
  (forall out, answers pl reg data name s (AOk out) <-> exists pb, items_out w [] [] None pb false false d out)
  /\ (forall e, answers pl reg data name s (AErr e) <-> exists out err, e = XRender err /\ items_err w name [] [] None false false d out (Fails err))
  /\ (forall p, answers pl reg data name s (APanic p) <-> p = PanUnwrap /\ exists out, items_err w name [] [] None false false d out Panics)
  /\ exists r, r <> AFuel /\ answers pl reg data name s r.
Proof.
  intros pl reg data docs d s name w Hf Hc Hd Hs Hr Ht.
  assert (S1 : forall pb out, items_out w [] [] None pb false false d out -> answers pl reg data name s (AOk out)).
  { intros pb out H. exact (C55_once pl reg data docs d s pb out name Hf Hd Hs Hr H). }
  assert (S2 : forall out err, items_err w name [] [] None false false d out err -> answers pl reg data name s (answer err)).
  { intros out err H. exact (C64_once pl reg data docs d s out err name Hf Hd Hs Hr H). }
  assert (T : (exists pb out, items_out w [] [] None pb false false d out) \/ (exists out err, items_err w name [] [] None false false d out err)) by (apply C65_total; assumption).
  split; [|split; [|split]].
  - intros out. split; [|intros (pb & H); exact (S1 _ _ H)]. intros H. destruct T as [(pb & o & Ho)|(o & err & Ho)].
    + pose proof (answers_one _ _ _ _ _ _ _ H (S1 _ _ Ho)) as X. injection X as ->. eauto.
    + pose proof (answers_one _ _ _ _ _ _ _ H (S2 _ _ Ho)) as X. destruct err; discriminate X.
  - intros e. split; [|intros (out & err & -> & H); exact (S2 _ _ H)]. intros H. destruct T as [(pb & o & Ho)|(o & err & Ho)].
    + pose proof (answers_one _ _ _ _ _ _ _ H (S1 _ _ Ho)) as X. discriminate X.
    + pose proof (answers_one _ _ _ _ _ _ _ H (S2 _ _ Ho)) as X. destruct err as [err|]; [|discriminate X]. injection X as ->. eauto.
  - intros p. split; [|intros (-> & out & H); exact (S2 _ _ H)]. intros H. destruct T as [(pb & o & Ho)|(o & err & Ho)].
    + pose proof (answers_one _ _ _ _ _ _ _ H (S1 _ _ Ho)) as X. discriminate X.
    + pose proof (answers_one _ _ _ _ _ _ _ H (S2 _ _ Ho)) as X. destruct err as [err|]; [discriminate X|]. injection X as ->. eauto.
  - destruct T as [(pb & o & Ho)|(o & err & Ho)]; [exists (AOk o); split; [discriminate|exact (S1 _ _ Ho)]|exists (answer err); split; [destruct err; discriminate|exact (S2 _ _ Ho)]].
Qed.
(** the same for a registered template *)
Theorem C65_render : forall pl reg data docs d s name o te, let w := mkWorld pl reg data docs in
  fits w -> closed w -> doc_ok (pl_penv pl) d -> doc_writes Loose d s -> Forall (regular w) d -> Forall (tame w) d ->
  template_compile pl o s = AOk te -> assoc name (rg_templates reg) = Some te ->
  exists N, (exists pb out, items_out w [] [] None pb false false d out /\ forall fuel, N <= fuel -> registry_render fuel pl reg name data = AOk out)
    \/ (exists out err, items_err w name [] [] None false false d out err /\ forall fuel, N <= fuel -> registry_render fuel pl reg name data = answer err).
Proof.
  intros pl reg data docs d s name o te w Hf Hc Hd Hs Hr Ht Hte Hn.
  assert (T : (exists pb out, items_out w [] [] None pb false false d out) \/ (exists out err, items_err w name [] [] None false false d out err)) by (apply C65_total; assumption).
  destruct T as [(pb & out & H)|(out & err & H)].
  - destruct (C55_render pl reg data docs d s pb out name o te Hf Hd Hs Hr H Hte Hn) as (N & HN). exists N. left. eauto.
  - destruct (C64_render pl reg data docs d s out err name o te Hf Hd Hs Hr H Hte Hn) as (N & HN). exists N. right. eauto.
Qed.

(** ** The standard helpers *)
Definition some_call : call := mkCall false false (0, 0) None (TPath (path_new (0, 0) (0, 0))) [] [] (0, 0).
Definition bare (n : str) (vs : list json) (ps : list (str * json)) (text : option str) (prop : option (str * json)) : hctx := mkHctx some_call [] n vs ps text prop [].
Definition stable (blk : bool) (f : helper) : Prop :=
  forall ctx t, (t <> None <-> blk = true) -> f ctx t = f (bare (hc_name ctx) (hc_args ctx) (hc_params ctx) (hc_text ctx) (hc_property ctx)) None.
Definition same_run (p q : hprog) : Prop := forall K en st, run K en p st = run K en q st.
Definition gives_or_halts (p : hprog) : Prop := exists q, same_run p q /\ ((exists v, q = HRet v) \/ exists s, q = halt s).
Lemma stable_acts w scs blk f n vs ps text prop : stable blk f -> acts w scs f n vs ps text prop blk (f (bare n vs ps text prop) None).
Proof. intros H ctx t <- <- <- <- <- Ht K en st _. rewrite (H ctx t Ht). reflexivity. Qed.
Lemma acts_same w scs f n vs ps text prop blk p q : acts w scs f n vs ps text prop blk p -> same_run p q -> acts w scs f n vs ps text prop blk q.
Proof. intros H Hq ctx t E1 E2 E3 E4 E5 Ht K en st Hs. rewrite (H ctx t E1 E2 E3 E4 E5 Ht K en st Hs). apply Hq. Qed.
Lemma goh_ret v : gives_or_halts (HRet v).
Proof. exists (HRet v). split; [intros K en st; reflexivity|]. left. eauto. Qed.
Lemma goh_fail e : gives_or_halts (HFail e).
Proof. exists (HFail e). split; [intros K en st; reflexivity|]. right. exists (Fails e). reflexivity. Qed.
Lemma goh_panic : gives_or_halts HPanic.
Proof. exists HPanic. split; [intros K en st; reflexivity|]. right. exists Panics. reflexivity. Qed.
Lemma goh_log lv ls k : gives_or_halts k -> gives_or_halts (log_lines lv ls k).
Proof. intros (q & H & Hq). exists q. split; [|exact Hq]. intros K en st. rewrite run_log. apply H. Qed.
Lemma goh_arity c lo hi k : gives_or_halts k -> gives_or_halts (with_arity c lo hi k).
Proof. intros H. unfold with_arity. destruct (ctx_arity c lo hi); [exact H|apply goh_fail]. Qed.
Lemma goh_arg c i k : (forall v, gives_or_halts (k v)) -> gives_or_halts (with_arg c i k).
Proof. intros H. unfold with_arg. destruct (ctx_get c i); [apply H|apply goh_panic]. Qed.
Lemma goh_try {A} (f : A -> hprog) r : (forall a, gives_or_halts (f a)) -> gives_or_halts (htry f r).
Proof. intros H. destruct r; [apply H|apply goh_fail]. Qed.
Create HintDb goh.
#[export] Hint Resolve goh_ret goh_fail goh_panic : goh.
Ltac goh := repeat first [apply goh_arity | apply goh_log | apply goh_arg; intros ? | apply goh_try; intros ? | solve [auto with goh] | match goal with |- gives_or_halts (match ?x with _ => _ end) => destruct x end].
(** helpers that are not about blocks *)
Lemma value_helper pl n f : builtin pl n f -> ~ In n block_helpers -> (forall blk, stable blk f) /\ forall ctx, gives_or_halts (f ctx None).
Proof.
  intros Hb Hn. unfold builtin in Hb. apply assoc_in in Hb. cbn [registry_new rg_helpers builtins In] in Hb.
  repeat (destruct Hb as [Hb|Hb]; [injection Hb as <- <-|]); try contradiction Hb; try (exfalso; apply Hn; cbn; tauto);
    (split; [intros blk ctx t _; reflexivity|intros ctx]); unfold eq_helper, ne_helper, gt_helper, gte_helper, lt_helper, lte_helper, cmp_helper, log_helper, lookup_helper, and_helper, or_helper, not_helper, json_helper; cbv zeta; goh.
Qed.
Lemma block_helper_value pl n f : builtin pl n f -> In n block_helpers -> stable false f /\ forall ctx, gives_or_halts (f ctx None).
Proof.
  intros Hb Hn. assert (N0 : forall t : option tpl, (t <> None <-> false = true) -> t = None) by (intros [t|] H; [discriminate (proj1 H ltac:(discriminate))|reflexivity]).
  cbn in Hn. repeat destruct Hn as [<-|Hn]; try contradiction; injection Hb as <-; (split; [intros ctx t Ht; rewrite (N0 t Ht); reflexivity|intros ctx]); unfold if_helper, unless_helper, with_helper, each_helper; goh.
Qed.
Lemma in_block_helpers n : {In n block_helpers} + {~ In n block_helpers}.
Proof. apply in_dec, (list_eq_dec N.eq_dec). Qed.
(** a standard helper used as a statement or sub-expression gives a value, fails or panics *)
Theorem C65_standard_pure : forall w pl n f, builtin pl n f -> pure w f.
Proof.
  intros w pl n f Hb. assert (X : stable false f /\ forall ctx, gives_or_halts (f ctx None)).
  { destruct (in_block_helpers n) as [Hn|Hn]; [exact (block_helper_value pl n f Hb Hn)|]. destruct (value_helper pl n f Hb Hn) as (H1 & H2). split; [apply H1|exact H2]. }
  destruct X as (H1 & H2). intros scs m vs ps text prop. destruct (H2 (bare m vs ps text prop)) as (q & Hq & X). exists q. split; [exact (acts_same _ _ _ _ _ _ _ _ _ _ _ (stable_acts w scs false f m vs ps text prop H1) Hq)|exact X].
Qed.
Lemma pure_simple w f : pure w f -> simple w false f.
Proof. intros H scs n vs ps text prop. destruct (H scs n vs ps text prop) as (p & H1 & [(v & ->)|H2]); eexists; (split; [exact H1|]); [left; exists [], v; reflexivity|right; exact H2]. Qed.
Theorem C65_standard_block : forall w pl n f, builtin pl n f -> In n block_helpers \/ simple w true f.
Proof.
  intros w pl n f Hb. destruct (in_block_helpers n) as [Hn|Hn]; [left; exact Hn|]. right. destruct (value_helper pl n f Hb Hn) as (H1 & H2). intros scs m vs ps text prop. destruct (H2 (bare m vs ps text prop)) as (q & Hq & X). exists q.
  split; [exact (acts_same _ _ _ _ _ _ _ _ _ _ _ (stable_acts w scs true f m vs ps text prop (H1 true)) Hq)|]. destruct X as [(v & ->)|X]; [left; exists [], v; reflexivity|right; exact X].
Qed.
(** so with standard helpers only every tidy document is tame, and the registry is closed *)
Lemma standard_silent w : only_standard w -> forall c, silent w c.
Proof.
  intros (H1 & H2 & H3 & H4) [h t xs hs] scs n f [n0 f0 _ H|n0 f0 _ _ _ H]; [exact (C65_standard_pure w _ n0 f0 (H1 n0 f0 H))|congruence].
Qed.
Lemma tidy_tame_expr w : only_standard w -> forall x, tidy_expr x = true -> tame_expr w x.
Proof.
  intros Hw. induction x as [sg l|x|s|b| |h t|h t args hash IHa IHh] using TotalFacts.expr_ind'; intros H; try (apply te_value; reflexivity).
  cbn [tidy_expr tidy_call] in H. apply andb_prop in H. destruct H as [H H3]. apply andb_prop in H. destruct H as [H1 H2]. apply te_sub; [apply standard_silent, Hw|].
  rewrite forallb_forall in H1, H2. constructor; [| |apply Nat.leb_le, H3]; rewrite Forall_forall in *; [intros x Hx; apply IHa; auto|intros x Hx; apply IHh; [exact Hx|apply H2, Hx]].
Qed.
Lemma tidy_tame_call w c : only_standard w -> tidy_call c = true -> tame_call w c.
Proof. intros Hw H. assert (X : tame_expr w (ESub c)) by (apply tidy_tame_expr; [exact Hw|exact H]). inversion X as [? Y|? _ Y]; subst; [discriminate Y|exact Y]. Qed.
Theorem C65_standard_tame : forall w i, only_standard w -> tidy i = true -> tame w i.
Proof.
  intros w i Hw. assert (X : forall m i, isize i <= m -> tidy i = true -> tame w i); [|exact (X (isize i) i (le_n _))]. clear i.
  induction m as [|m IH]; intros i Hm H; [pose proof (isize_pos i); lia|]. destruct i as [x|triple tl p c|triple tl p c xs hs|x|x|x|esc parts|c tl x tl'|p c tl body bs tl']; try (constructor; fail); cbn [tidy] in H.
  - constructor. apply tidy_tame_call; assumption.
  - apply andb_prop in H. destruct H as [H H']. constructor; [apply tidy_tame_call; assumption|intros _; apply standard_silent, Hw|].
    pose proof (tidy_tame_call w (Call HdThis [] xs hs) Hw H') as Y. inversion Y; subst. split; [assumption|split; assumption].
  - apply andb_prop in H. destruct H as [H1 H2]. constructor; [apply tidy_tame_call; assumption|]. intros f Hf. destruct Hw as (Hw & _). destruct (C65_standard_block w _ _ f (Hw _ f Hf)) as [Y|Y]; [|exact Y].
    exfalso. apply negb_true_iff in H2. enough (existsb (streq (call_name c)) block_helpers = true) by congruence. apply existsb_exists. exists (call_name c). split; [exact Y|apply streq_refl].
  - apply andb_prop in H. destruct H as [H H3]. apply andb_prop in H. destruct H as [H1 H2]. rewrite forallb_forall in H2, H3. cbn [isize] in Hm.
    assert (B : forall l, list_sum (map isize l) <= m -> (forall j, In j l -> tidy j = true) -> Forall (tame w) l).
    { intros l Hl Hj. apply Forall_forall. intros j Hin. apply IH; [|apply Hj, Hin]. pose proof (list_sum_in isize j l Hin). lia. }
    constructor; [apply tidy_tame_call; assumption|apply B; [lia|exact H2]|]. apply Forall_forall. intros b Hin. specialize (H3 b Hin). apply andb_prop in H3. destruct H3 as [H3 H4]. rewrite forallb_forall in H4.
    pose proof (list_sum_in (fun b : branch => S (list_sum (map isize (snd b)))) b bs Hin) as L. cbv beta in L. unfold br_cond, br_body. unfold branch in *. split; [|apply B; [lia|exact H4]].
    intros x Ex. rewrite Ex in H3. split; [apply standard_silent, Hw|apply tidy_tame_call; assumption].
Qed.
Lemma standard_closed w : only_standard w -> (forall n, assoc n (rg_templates (w_reg w)) <> None -> assoc n (w_docs w) <> None) ->
  (forall n d, assoc n (w_docs w) = Some d -> forallb tidy d = true) -> closed w.
Proof.
  intros Hw Ht Hd. pose proof Hw as (H1 & H2 & H3 & H4). constructor; try congruence.
  - intros n f H. split; [apply pure_simple; exact (C65_standard_pure w _ n f (H1 n f H))|]. destruct (C65_standard_block w _ n f (H1 n f H)) as [X|X]; [right; auto|left; exact X].
  - exact Ht.
  - intros n d H. apply Forall_forall. intros i Hi. apply C65_standard_tame; [exact Hw|]. specialize (Hd n d H). rewrite forallb_forall in Hd. auto.
Qed.
(** A registry with the standard helpers (any subset) and templates from tidy regular documents: every call of [once] with a tidy regular document
    ends, with exactly the text, the error or the panic of the semantics. *)
Theorem C65_standard : forall pl reg data docs d s name, let w := mkWorld pl reg data docs in
  fits w -> only_standard w -> (forall n, assoc n (rg_templates reg) <> None -> assoc n docs <> None) -> (forall n x, assoc n docs = Some x -> forallb tidy x = true) ->
  doc_ok (pl_penv pl) d -> doc_writes Loose d s -> Forall (regular w) d -> forallb tidy d = true ->
  (exists pb out, items_out w [] [] None pb false false d out /\ answers pl reg data name s (AOk out))
  \/ (exists out err, items_err w name [] [] None false false d out err /\ answers pl reg data name s (answer err)).
Proof.
  intros pl reg data docs d s name w Hf Hw Ht Hx Hd Hs Hr Htd. pose proof (standard_closed w Hw Ht Hx) as Hc.
  assert (Tm : Forall (tame w) d). { apply Forall_forall. intros i Hi. apply C65_standard_tame; [exact Hw|]. rewrite forallb_forall in Htd. auto. }
  assert (T : (exists pb out, items_out w [] [] None pb false false d out) \/ (exists out err, items_err w name [] [] None false false d out err)) by (apply C65_total; assumption).
  destruct T as [(pb & out & H)|(out & err & H)]; [left; exists pb, out; split; [exact H|exact (C55_once pl reg data docs d s pb out name Hf Hd Hs Hr H)]|right; exists out, err; split; [exact H|exact (C64_once pl reg data docs d s out err name Hf Hd Hs Hr H)]].
Qed.

(** ** The hypotheses hold for the example of C64, for all data *)
Lemma broken_standard data : only_standard (mkWorld pl0 broken_reg data [(lit "p", broken_p)]).
Proof. split; [intros n f H; exact H|repeat split]. Qed.
Example C65_nonvacuous : forall data name,
  let w := mkWorld pl0 broken_reg data [(lit "p", broken_p)] in
  fits w /\ only_standard w /\ closed w /\ Forall (tame w) broken /\ Forall (regular w) broken /\ exists r, r <> AFuel /\ answers pl0 broken_reg data name (doc_text broken) r.
Proof.
  intros data name w.
  assert (Hf : fits w).
  { destruct broken_fits as [F1 F2]. split; [exact F1|]. intros n d H. destruct (F2 n d H) as (X1 & X2 & X3 & X4). split; [exact X1|]. split; [|split; [exact X3|exact X4]].
    cbn [assoc broken_world w_docs w] in H. destruct (streq n (lit "p")); [|discriminate H]. injection H as <-. repeat constructor. }
  assert (Hw : only_standard w) by apply broken_standard.
  assert (Hc : closed w).
  { apply standard_closed; [exact Hw| |].
    - intros n. cbn [w w_reg w_docs]. intros H. change (assoc n (rg_templates broken_reg)) with (assoc n (match template_compile pl0 (mkOpts (lit "p") 0 0) (doc_text broken_p) with AOk te => [(lit "p", te)] | _ => [] end)) in H.
      cbn [assoc]. destruct (streq n (lit "p")) eqn:E; [discriminate|]. exfalso. apply H. destruct (template_compile _ _ _); [|reflexivity..]. cbn [assoc]. rewrite E. reflexivity.
    - intros n d H. cbn [assoc w w_docs] in H. destruct (streq n (lit "p")); [|discriminate H]. injection H as <-. reflexivity. }
  assert (Ht : Forall (tame w) broken) by (apply Forall_forall; intros i Hi; apply C65_standard_tame; [exact Hw|]; cbn in Hi; repeat (destruct Hi as [<-|Hi]; [reflexivity|]); contradiction Hi).
  assert (Hr : Forall (regular w) broken).
  { unfold broken, show, var. repeat apply Forall_cons; try apply Forall_nil; try (constructor; fail).
    apply reg_block; try reflexivity; try discriminate; try (repeat constructor; fail). intros _. right. split; [reflexivity|]. right.
    intros n d H. cbn [assoc w w_docs] in H. destruct (streq n (lit "p")); [|discriminate H]. injection H as <-. reflexivity. }
  repeat (split; [assumption|]). destruct (C65_once pl0 broken_reg data _ broken _ name Hf Hc broken_ok (doc_canon _ _ _ broken_ok) Hr Ht) as (_ & _ & _ & H). exact H.
Qed.
