(** * Props_Sem: rendering follows the source semantics (C55), and what this says about the single items (C06, C19-C23, C46, C56). *)
From Coq Require Import Lia String.
From Verif Require Import Str Regex Lexer Json Ast ErrInfo Parser Render Helpers Registry Tests StrFacts RegexFacts Spec_Lexer Spec_Values ValueFacts Spec_Helpers
  LookupFacts Spec_Render Spec_Blocks Spec_Calls CycleFacts HashFacts BuiltinFacts Props_Values Props_Blocks Props_Calls Spec_Source SynBlock SynLayout Props_Source SynLex Spec_Sem SemFacts SemItems.
Open Scope nat_scope. Open Scope list_scope.

(** ** C55 *)
Lemma from_start w en pb out l src ns A : at_state [] [] (r_new []) -> (A = true -> flat l) ->
  Forall2 (node_is Loose (pl_penv (w_plat w)) src) ns l -> Forall (regular w) l -> items_good w en [] [] None pb false false l out -> A = false ->
  exists N, forall k, N <= k -> exists st, render_ (tie k) en (mkTpl src (NDoc ns)) (r_new []) = ROk tt st /\ concat (r_out st) = out.
Proof.
  intros H0 HA Hn Hr Hg ->. destruct (Hg src ns false Hn Hr HA [] eq_refl) as (N & ppl & _ & HN). exists N. intros k Hk.
  destruct (HN k (r_new []) None None Hk H0 eq_refl ltac:(congruence) ltac:(reflexivity)) as (st & E & (_ & _ & M) & _). exists st. split; [|exact M].
  unfold render_. cbn [tp_src tp_node children]. rewrite plain_step. exact E.
Qed.
(** the output of any writer that accepts everything *)
Theorem C55_semantics : forall pl reg data docs d s pb out name wr o te,
  let w := mkWorld pl reg data docs in
  fits w -> doc_ok (pl_penv pl) d -> doc_writes Loose d s -> Forall (regular w) d -> items_out w [] [] None pb false false d out ->
  (forall h s, exists n, wr h s = WOk n) -> template_compile pl o s = AOk te ->
  exists N, forall fuel, N <= fuel -> exists parts, template_render fuel pl reg name (te_tpl te) data wr [] = (AOk tt, parts) /\ concat parts = out.
Proof.
  intros pl reg data docs d s pb out name wr o te w Hf Hd Hs Hr Ho Hw Ht. destruct (compiled w o d s te Hd Hs Ht) as (ns & E & Hn).
  destruct (out_runs w (mkEnv pl reg name data wr) eq_refl eq_refl eq_refl Hw Hf) as (_ & G & _).
  destruct (from_start w (mkEnv pl reg name data wr) pb out d s ns false) as (N & HN); try assumption; try discriminate; try reflexivity.
  - repeat split.
  - apply G, Ho.
  - exists N. intros fuel Hfu. destruct (HN fuel Hfu) as (st & E1 & E2). exists (r_out st). split; [|exact E2]. unfold template_render, render_template_go. rewrite E, E1. reflexivity.
Qed.
(** [Registry::once] and [Registry::render] *)
Theorem C55_once : forall pl reg data docs d s pb out name,
  let w := mkWorld pl reg data docs in
  fits w -> doc_ok (pl_penv pl) d -> doc_writes Loose d s -> Forall (regular w) d -> items_out w [] [] None pb false false d out ->
  exists N, forall fuel, N <= fuel -> registry_once fuel pl reg name s data = AOk out.
Proof.
  intros pl reg data docs d s pb out name w Hf Hd Hs Hr Ho. destruct (compile_printed Loose (pl_penv pl) (mkOpts name 0 0) d s Hd Hs) as (ns & fs & E & _).
  assert (exists te, template_compile pl (mkOpts name 0 0) s = AOk te) as (te & Ht) by (unfold template_compile; rewrite E; eauto).
  destruct (C55_semantics pl reg data docs d s pb out name string_writer _ te Hf Hd Hs Hr Ho ltac:(intros; eexists; reflexivity) Ht) as (N & HN).
  exists N. intros fuel Hfu. destruct (HN fuel Hfu) as (parts & E1 & E2). unfold registry_once. rewrite Ht. unfold to_str. rewrite E1. cbn. rewrite E2. reflexivity.
Qed.
Theorem C55_render : forall pl reg data docs d s pb out name o te,
  let w := mkWorld pl reg data docs in
  fits w -> doc_ok (pl_penv pl) d -> doc_writes Loose d s -> Forall (regular w) d -> items_out w [] [] None pb false false d out ->
  template_compile pl o s = AOk te -> assoc name (rg_templates reg) = Some te ->
  exists N, forall fuel, N <= fuel -> registry_render fuel pl reg name data = AOk out.
Proof.
  intros pl reg data docs d s pb out name o te w Hf Hd Hs Hr Ho Ht Hn.
  destruct (C55_semantics pl reg data docs d s pb out name string_writer _ te Hf Hd Hs Hr Ho ltac:(intros; eexists; reflexivity) Ht) as (N & HN).
  exists N. intros fuel Hfu. destruct (HN fuel Hfu) as (parts & E1 & E2). unfold registry_render, registry_render_to_write, to_str. rewrite Hn, E1. cbn. rewrite E2. reflexivity.
Qed.
(** hence a document means at most one text *)
Theorem C55_unique : forall pl reg data docs d pb pb' o o',
  let w := mkWorld pl reg data docs in
  fits w -> doc_ok (pl_penv pl) d -> Forall (regular w) d -> items_out w [] [] None pb false false d o -> items_out w [] [] None pb' false false d o' -> o = o'.
Proof.
  intros pl reg data docs d pb pb' o o' w Hf Hd Hr H H'. destruct (C55_once pl reg data docs d _ pb o [] Hf Hd (doc_canon _ _ _ Hd) Hr H) as (N & HN). destruct (C55_once pl reg data docs d _ pb' o' [] Hf Hd (doc_canon _ _ _ Hd) Hr H') as (N' & HN').
  specialize (HN (N + N') ltac:(lia)). specialize (HN' (N + N') ltac:(lia)). rewrite HN in HN'. injection HN' as ->. reflexivity.
Qed.

(** ** Documents in a row *)
Lemma items_out_app w scs act pb1 pb' l1 : forall pb s e l2 o1 o2, items_out w scs act pb pb1 s (next_before e l2) l1 o1 -> items_out w scs act pb1 pb' (last_after s l1) e l2 o2 -> items_out w scs act pb pb' s e (l1 ++ l2) (o1 ++ o2).
Proof.
  induction l1 as [|i l1 IH]; intros pb s e l2 o1 o2 H1 H2; inversion H1 as [|? ? ? pb2 ? ? ? ? ? oi oj Hi Hj]; subst; [exact H2|]. cbn [app]. rewrite <- app_assoc. apply (out_cons _ _ _ _ pb2).
  - destruct l1; assumption.
  - apply IH; assumption.
Qed.
Lemma items_out_split w scs act l1 : forall pb pb' s e l2 o, items_out w scs act pb pb' s e (l1 ++ l2) o ->
  exists pb1 o1 o2, o = o1 ++ o2 /\ items_out w scs act pb pb1 s (next_before e l2) l1 o1 /\ items_out w scs act pb1 pb' (last_after s l1) e l2 o2.
Proof.
  induction l1 as [|i l1 IH]; intros pb pb' s e l2 o H; [exists pb, [], o; repeat split; [constructor|exact H]|]. cbn [app] in H. inversion H as [|? ? ? pb2 ? ? ? ? ? oi oj Hi Hj]; subst.
  destruct (IH _ _ _ _ _ _ Hj) as (pb1 & o1 & o2 & -> & H1 & H2). exists pb1, (oi ++ o1), o2. split; [apply app_assoc|]. split; [|exact H2]. apply (out_cons _ _ _ _ pb2); [|exact H1].
  destruct l1; assumption.
Qed.
Lemma stripped_none x : stripped false false x x.
Proof. exists [], []. rewrite app_nil_r. repeat split; intros c []. Qed.

(** what [Registry::once] gives for a source *)
Definition renders (pl : plat) (reg : registry) (data : json) (src out : str) : Prop :=
  forall name, exists N, forall fuel, N <= fuel -> registry_once fuel pl reg name src data = AOk out.
(** the world of a single template: no partials *)
Definition alone (pl : plat) (reg : registry) (data : json) : world := mkWorld pl reg data [].
(** the only assumption on the platform: a hash table lists its entries *)
Definition table (pl : plat) : Prop := forall src c, Permutation (pl_order pl src c) (c_params c).
Lemma alone_fits pl reg data : table pl -> fits (alone pl reg data).
Proof. intros H. split; [exact H|]. intros n d E. discriminate E. Qed.
Lemma means pl reg data docs d s pb out : fits (mkWorld pl reg data docs) -> doc_ok (pl_penv pl) d -> doc_writes Loose d s -> Forall (regular (mkWorld pl reg data docs)) d ->
  items_out (mkWorld pl reg data docs) [] [] None pb false false d out -> renders pl reg data s out.
Proof. intros Hf Hd Hs Hr Ho name. eapply C55_once; eassumption. Qed.

(** ** C06: plain text *)
Lemma plain_compile pe o s : ~ occurs (lit "{{") s -> ~ occurs (lit "[[") s ->
  (s = [] /\ exists fs, compile pe o s = POk (NDoc []) fs) \/ (s <> [] /\ exists t fs, compile pe o s = POk (NDoc [NText t]) fs /\ tx_span t = (0, blen s) /\ text_str s t = Some s).
Proof.
  intros H1 H2. destruct s as [|c s]; [left|right].
  - split; [reflexivity|]. destruct (C54_parse_print pe o [] ltac:(constructor)) as (ns & fs & E & F). inversion F; subst. exists fs. exact E.
  - split; [discriminate|]. assert (Hd : doc_ok pe [IText (c :: s)]).
    { apply okL_text; [split; [discriminate|split; assumption]|discriminate|intros [X|X]; [discriminate X|congruence]|exact I|constructor]. }
    destruct (C54_parse_print pe o _ Hd) as (ns & fs & E & F). inversion F as [|n i ns' l Hn Hl]; subst. inversion Hl; subst. inversion Hn; subst.
    unfold doc_text in *. cbn [flat_map item_text] in *. rewrite app_nil_r in *. exists t, fs. split; [exact E|]. split; [|assumption].
    unfold text_str, sl in *. destruct (tx_span t) as [a b]. cbn [fst snd] in *.
    match goal with X : slice _ a b = Some _ |- _ => apply slice_inv in X; destruct X as (u & v & Eu & Ea & Eb) end.
    assert (u = [] /\ v = []) as [-> ->].
    { apply (f_equal (@length _)) in Eu. rewrite !app_length in Eu. destruct u, v; cbn in Eu; try lia; auto. }
    cbn in Ea. subst. reflexivity.
Qed.
Theorem C06_plain_text_compiles : forall pe o s, ~ occurs (lit "{{") s -> ~ occurs (lit "[[") s ->
  exists ns fs, compile pe o s = POk (NDoc ns) fs
    /\ ((s = [] /\ ns = []) \/ exists t, ns = [NText t] /\ tx_span t = (0, blen s) /\ text_str s t = Some s).
Proof.
  intros pe o s H1 H2. destruct (plain_compile pe o s H1 H2) as [(-> & fs & E)|(_ & t & fs & E & X)]; eexists _, fs; (split; [exact E|]); [left; auto|right; exists t; auto].
Qed.
Theorem C06_plain_text_renders : forall pl reg data name s, ~ occurs (lit "{{") s -> ~ occurs (lit "[[") s ->
  exists N, forall fuel, N <= fuel -> registry_once fuel pl reg name s data = AOk s.
Proof.
  intros pl reg data name s H1 H2. destruct (plain_compile (pl_penv pl) (mkOpts name 0 0) s H1 H2) as [(-> & fs & E)|(Hne & t & fs & E & _ & X)].
  - exists 1. intros [|fuel] Hfu; [lia|]. unfold registry_once, template_compile. rewrite E. reflexivity.
  - set (en := mkEnv pl reg name data string_writer). set (w := alone pl reg data).
    assert (G : items_good w en [] [] None None false false [IText s] (s ++ [])).
    { eapply items_cons; [|apply items_nil]. apply text_good; [reflexivity|intros; eexists; reflexivity|apply stripped_none]. }
    rewrite app_nil_r in G.
    destruct (from_start w en None s [IText s] s [NText t] false) as (N & HN); try discriminate; try exact G.
    + repeat split.
    + constructor; [constructor; exact X|constructor].
    + repeat constructor.
    + reflexivity.
    + exists N. intros fuel Hfu. destruct (HN fuel Hfu) as (st & E1 & E2). unfold registry_once, template_compile. rewrite E.
      unfold to_str, template_render, render_template_go, te_tpl. cbn [te_src te_node]. fold en. rewrite E1. cbn. rewrite E2. reflexivity.
Qed.
(** the two openers are really needed, and text may contain anything else *)
Example C06_nonvacuous : (let s := lit "a } { [ ] \ ""x"" {-{" in ~ occurs (lit "{{") s /\ ~ occurs (lit "[[") s)
  /\ once reg0 (lit "a } { [ ] \ ""x"" {-{") (JObj []) = AOk (lit "a } { [ ] \ ""x"" {-{").
Proof. split; [split; apply occurs_b; reflexivity|vm_compute; reflexivity]. Qed.

(** ** C19: double and triple stash *)
Lemma ident_value w n v : assoc n (rg_helpers (w_reg w)) = None -> has_field (w_data w) n v -> call_value w [] [] (Call (HdName n) [] [] []) (Some v).
Proof.
  intros Hn Hv. apply cv_variable.
  - intros m (_ & -> & _). unfold path_text. cbn [head_text tail_text]. rewrite app_nil_r. exact Hn.
  - apply pv_name. apply visible_data. apply follow_one. exact Hv.
Qed.
Lemma out_one w scs act pb pb' s e i o : item_out w scs act pb pb' s e i o -> items_out w scs act pb pb' s e [i] o.
Proof. intros H. rewrite <- (app_nil_r o). eapply out_cons; [exact H|apply out_nil]. Qed.
(** [{{n}}] and [{{{n}}}] as source text, for every variable of the data that is not the name of a helper *)
Lemma writes_one i s : item_writes Loose i s -> doc_writes Loose [i] s.
Proof. intros H. exists [s]. split; [constructor; [exact H|constructor]|cbn; now rewrite app_nil_r]. Qed.
Lemma stash pl reg data n v x triple s : table pl -> name_ok n -> assoc n (rg_helpers reg) = None -> has_field data n v -> shown (pl_fstr pl) v x ->
  item_writes Loose (ICall triple nt false (Call (HdName n) [] [] [])) s -> renders pl reg data s (if triple then x else written (rg_escape reg) x).
Proof.
  intros Ht Hn Hh Hv Hx Hs. apply (means pl reg data [] [ICall triple nt false (Call (HdName n) [] [] [])] s None).
  - apply (alone_fits pl reg data), Ht.
  - apply okL_tag; [reflexivity| |apply okL_nil]. apply okI_call. apply ok_call; [exact Hn|constructor|constructor|constructor|constructor].
  - now apply writes_one.
  - repeat constructor.
  - apply out_one. change (rg_escape reg) with (rg_escape (w_reg (mkWorld pl reg data []))).
    eapply io_value; [apply ident_value; [exact Hh|exact Hv]|exact Hx|apply stripped_none].
Qed.
Lemma stash_writes (l r : string) n g g' : gap_str g -> gap_str g' ->
  tag_writes Loose l nt [] false (Call (HdName n) [] [] []) r (lit l ++ g ++ n ++ g' ++ lit r).
Proof.
  intros Hg Hg'. exists (lit l ++ g), [], n, (g' ++ lit r). split; [cbn [app]; now rewrite <- !app_assoc|].
  split; [exists [], g; split; [unfold open_tag, nt; cbn [tl_before tilde app]; now rewrite app_nil_r|split; [intros c []|exact Hg]]|].
  split; [reflexivity|]. split; [|exists g'; split; [reflexivity|exact Hg']].
  pose proof (w_call Loose (HdName n) [] [] [] [] [] (w_args_nil _) (w_hash_nil _)) as H. unfold path_text in H. cbn [head_text tail_text] in H. rewrite !app_nil_r in H. exact H.
Qed.
(** with any white space around the name *)
Theorem C19_double_stash_escapes : forall pl reg data n v x g g', table pl -> name_ok n -> assoc n (rg_helpers reg) = None ->
  has_field data n v -> shown (pl_fstr pl) v x -> x <> [] -> gap_str g -> gap_str g' ->
  renders pl reg data (lit "{{" ++ g ++ n ++ g' ++ lit "}}") (rg_escape reg x).
Proof.
  intros pl reg data n v x g g' Ht Hn Hh Hv Hx Hne Hg Hg'.
  assert (H : renders pl reg data (lit "{{" ++ g ++ n ++ g' ++ lit "}}") (written (rg_escape reg) x)).
  { apply (stash pl reg data n v x false); try assumption. constructor; [now apply (stash_writes "{{" "}}")|intros X; discriminate X]. }
  destruct x as [|c x]; [congruence|]. exact H.
Qed.
Theorem C19_triple_stash_verbatim : forall pl reg data n v x g g', table pl -> name_ok n -> assoc n (rg_helpers reg) = None ->
  has_field data n v -> shown (pl_fstr pl) v x -> gap_str g -> gap_str g' ->
  renders pl reg data (lit "{{{" ++ g ++ n ++ g' ++ lit "}}}") x.
Proof.
  intros pl reg data n v x g g' Ht Hn Hh Hv Hx Hg Hg'. apply (stash pl reg data n v x true); try assumption.
  constructor; [now apply (stash_writes "{{{" "}}}")|intros X; discriminate X].
Qed.
Lemma no_gap : gap_str [].
Proof. intros c []. Qed.
Example C19_nonvacuous : let data := JObj [(lit "title", JStr (lit "a<b"))] in
  table pl0 /\ name_ok (lit "title") /\ assoc (lit "title") (rg_helpers reg0) = None /\ has_field data (lit "title") (JStr (lit "a<b"))
  /\ shown (pl_fstr pl0) (JStr (lit "a<b")) (lit "a<b")
  /\ once reg0 (lit "{{title}}") data = AOk (lit "a&lt;b") /\ once reg0 (lit "{{ title" ++ [10%N] ++ lit "}}") data = AOk (lit "a&lt;b") /\ once reg0 (lit "{{{title}}}") data = AOk (lit "a<b").
Proof.
  cbn zeta. split; [intros src c; apply Permutation_refl|]. split; [repeat split; try discriminate; cbn; intuition discriminate|].
  split; [reflexivity|]. split; [|split; [constructor|repeat (split; [vm_compute; reflexivity|]); vm_compute; reflexivity]].
  apply (has_member []). intros [].
Qed.

(** ** One item among others *)
Lemma out_among w scs act pb pb1 pb2 pb' s e d1 i d2 o1 o o2 : items_out w scs act pb pb1 s (before i) d1 o1 -> item_out w scs act pb1 pb2 (last_after s d1) (next_before e d2) i o ->
  items_out w scs act pb2 pb' (after i) e d2 o2 -> items_out w scs act pb pb' s e (d1 ++ i :: d2) (o1 ++ o ++ o2).
Proof. intros H1 H H2. eapply items_out_app; [exact H1|]. eapply out_cons; eassumption. Qed.
Lemma writes_among d1 i d2 s1 si s2 : doc_writes Loose d1 s1 -> item_writes Loose i si -> doc_writes Loose d2 s2 -> doc_writes Loose (d1 ++ i :: d2) (s1 ++ si ++ s2).
Proof.
  intros (l1 & H1 & ->) Hi (l2 & H2 & ->). exists (l1 ++ si :: l2). split; [apply Forall2_app; [exact H1|constructor; assumption]|]. rewrite concat_app. reflexivity.
Qed.
(** a template in which [i] stands between [d1], written [s1], and [d2], written [s2], in a world that satisfies the conditions of C55 *)
Definition setting (w : world) (d1 : list item) (i : item) (d2 : list item) (s1 s2 : str) : Prop :=
  fits w /\ doc_ok (pl_penv (w_plat w)) (d1 ++ i :: d2) /\ Forall (regular w) (d1 ++ i :: d2) /\ doc_writes Loose d1 s1 /\ doc_writes Loose d2 s2.
Lemma among w pb pb1 pb' d1 i d2 s1 si s2 o1 o o2 : setting w d1 i d2 s1 s2 -> item_writes Loose i si -> items_out w [] [] None pb false (before i) d1 o1 ->
  item_out w [] [] pb pb1 (last_after false d1) (next_before false d2) i o -> items_out w [] [] pb1 pb' (after i) false d2 o2 ->
  renders (w_plat w) (w_reg w) (w_data w) (s1 ++ si ++ s2) (o1 ++ o ++ o2).
Proof.
  intros (Hf & Hd & Hr & Hs1 & Hs2) Hsi H1 H H2. destruct w as [pl reg data docs]. apply (means pl reg data docs (d1 ++ i :: d2) _ pb'); try assumption.
  - apply writes_among; assumption.
  - eapply out_among; eassumption.
Qed.

(** ** C20: comments *)
Theorem C20_comments : forall w pb pb' d1 d2 s1 s2 i x o1 o2, i = IComment x \/ i = IRawComment x -> setting w d1 i d2 s1 s2 ->
  items_out w [] [] None pb false false d1 o1 -> items_out w [] [] pb pb' false false d2 o2 ->
  renders (w_plat w) (w_reg w) (w_data w) (s1 ++ item_text i ++ s2) (o1 ++ o2).
Proof.
  intros w pb pb' d1 d2 s1 s2 i x o1 o2 [-> | ->] Hs H1 H2; change (o1 ++ o2) with (o1 ++ [] ++ o2);
    [apply (among w pb pb pb' d1 (IComment x) d2)|apply (among w pb pb pb' d1 (IRawComment x) d2)]; try assumption; constructor.
Qed.
(** in any document, at any depth: rendering a comment node changes nothing that can be observed *)
Theorem C20_no_effect : forall K en src t n tr st, n = NComment t \/ n = NRawComment t ->
  exists st', node_ K en src n tr st = ROk tt st' /\ r_out st' = r_out st /\ r_scopes st' = r_scopes st
    /\ r_stack st' = r_stack st /\ r_local st' = r_local st /\ r_partials st' = r_partials st.
Proof.
  intros K en src t n tr st [-> | ->]; unfold node_, node_body, node_trim, need, upd, bind, ret; destruct st as [a b c d e f g h i]; cbn;
    destruct f as [[[] []]|]; cbn; eexists; repeat split.
Qed.

(** ** C21: escaped statements *)
Theorem C21_escaped_statement : forall w pb pb' d1 d2 s1 s2 x y o1 o2, setting w d1 (IEscaped x) d2 s1 s2 ->
  items_out w [] [] None pb false false d1 o1 -> items_out w [] [] pb pb' false false d2 o2 ->
  stripped (last_after false d1) (next_before false d2) (lit "{{" ++ x ++ lit "}}") y ->
  renders (w_plat w) (w_reg w) (w_data w) (s1 ++ (lit "\{{" ++ x ++ lit "}}") ++ s2) (o1 ++ y ++ o2).
Proof. intros w pb pb' d1 d2 s1 s2 x y o1 o2 Hs H1 H2 Hy. apply (among w pb pb pb' d1 (IEscaped x) d2); try assumption; [apply (wI_escaped Loose x)|]. constructor. exact Hy. Qed.
(** without a neighbouring [~] the statement appears exactly as it was written *)
Theorem C21_verbatim : forall w pb pb' d1 d2 s1 s2 x o1 o2, setting w d1 (IEscaped x) d2 s1 s2 ->
  items_out w [] [] None pb false false d1 o1 -> items_out w [] [] pb pb' false false d2 o2 ->
  last_after false d1 = false -> next_before false d2 = false ->
  renders (w_plat w) (w_reg w) (w_data w) (s1 ++ (lit "\{{" ++ x ++ lit "}}") ++ s2) (o1 ++ (lit "{{" ++ x ++ lit "}}") ++ o2).
Proof. intros w pb pb' d1 d2 s1 s2 x o1 o2 Hs H1 H2 E1 E2. apply (C21_escaped_statement w pb pb' d1 d2); try assumption. rewrite E1, E2. apply stripped_none. Qed.
(** and braces are not blank: in any context the first and last character of the statement stay *)
Theorem C21_strip_nothing : forall s e x y, stripped s e (lit "{{" ++ x ++ lit "}}") y -> y = lit "{{" ++ x ++ lit "}}".
Proof.
  intros s e x y (a & b & E & Ha & Hb & _ & _).
  assert (a = []) as ->.
  { destruct a as [|c a]; [reflexivity|]. injection E as E _. specialize (Ha c ltac:(left; reflexivity)). subst c. apply white_ws in Ha. discriminate Ha. }
  assert (b = []) as ->.
  { destruct b as [|c b _] using rev_ind; [reflexivity|]. cbn [app] in E. change (lit "{{" ++ x ++ lit "}}") with (lit "{{" ++ x ++ [125%N] ++ [125%N]) in E.
    rewrite !app_assoc in E. apply app_inj_tail in E. destruct E as [_ E]. specialize (Hb c ltac:(apply in_or_app; right; left; reflexivity)). subst c. apply white_ws in Hb. discriminate Hb. }
  rewrite E. cbn. now rewrite app_nil_r.
Qed.

(** ** C22: raw blocks *)
Theorem C22_raw_block : forall w pb pb' d1 d2 s1 si s2 n xs hs m x m' y z o1 o2, let i := IRaw (Call (HdName n) [] xs hs) m x m' in setting w d1 i d2 s1 s2 -> item_writes Loose i si ->
  items_out w [] [] None pb false (tl_before m) d1 o1 -> items_out w [] [] pb pb' (tl_after m') false d2 o2 ->
  assoc n (rg_helpers (w_reg w)) = None -> stripped (tl_after m) (tl_before m') x y -> stripped (last_after false d1) (next_before false d2) y z ->
  renders (w_plat w) (w_reg w) (w_data w) (s1 ++ si ++ s2) (o1 ++ z ++ o2).
Proof. intros w pb pb' d1 d2 s1 si s2 n xs hs m x m' y z o1 o2 i Hs Hi H1 H2 Hn Hy Hz. apply (among w pb pb pb' d1 i d2); try assumption. eapply io_raw; eassumption. Qed.
Lemma raw_writes n x : item_writes Loose (IRaw (Call (HdName n) [] [] []) nt x nt) (item_text (IRaw (Call (HdName n) [] [] []) nt x nt)).
Proof.
  cbn [item_text]. pose proof (wI_raw Loose (Call (HdName n) [] [] []) nt x nt _ _ (tag_canon Loose "{{{{" nt [] false _ "}}}}") (close_canon Loose "{{{{" nt _ "}}}}")) as H.
  rewrite !app_nil_r in H. rewrite <- !app_assoc in *. exact H.
Qed.
(** the content between the tags, whatever tags it contains itself *)
Theorem C22_verbatim : forall w pb pb' d1 d2 s1 s2 n x o1 o2, setting w d1 (IRaw (Call (HdName n) [] [] []) nt x nt) d2 s1 s2 ->
  items_out w [] [] None pb false false d1 o1 -> items_out w [] [] pb pb' false false d2 o2 ->
  assoc n (rg_helpers (w_reg w)) = None -> last_after false d1 = false -> next_before false d2 = false ->
  renders (w_plat w) (w_reg w) (w_data w) (s1 ++ (lit "{{{{" ++ n ++ lit "}}}}" ++ x ++ lit "{{{{/" ++ n ++ lit "}}}}") ++ s2) (o1 ++ x ++ o2).
Proof.
  intros w pb pb' d1 d2 s1 s2 n x o1 o2 Hs H1 H2 Hn E1 E2. pose proof (C22_raw_block w pb pb' d1 d2 s1 _ s2 n [] [] nt x nt x x o1 o2 Hs (raw_writes n x) H1 H2 Hn (stripped_none x)) as H.
  rewrite E1, E2 in H. specialize (H (stripped_none x)). cbn [item_text] in H. unfold open_tag, close_tag, call_name, nt, path_text in H.
  cbn [tl_before tl_after tilde call_text flat_map] in H. unfold path_text in H. cbn [head_text tail_text] in H. rewrite !app_nil_r in H. exact H.
Qed.

(** ** C23: links *)
(** no handler, or an escaped link: the source text without the backslash *)
Theorem C23_verbatim : forall w pb pb' d1 d2 s1 s2 esc parts o1 o2, setting w d1 (ILink esc parts) d2 s1 s2 ->
  items_out w [] [] None pb false false d1 o1 -> items_out w [] [] pb pb' false false d2 o2 -> last_after false d1 = false -> next_before false d2 = false ->
  esc = true \/ rg_link (w_reg w) = None ->
  renders (w_plat w) (w_reg w) (w_data w) (s1 ++ ((if esc then [92%N] else []) ++ lit "[[" ++ join [124%N] parts ++ lit "]]") ++ s2)
    (o1 ++ (lit "[[" ++ join [124%N] parts ++ lit "]]") ++ o2).
Proof.
  intros w pb pb' d1 d2 s1 s2 esc parts o1 o2 Hs H1 H2 E1 E2 Hh. apply (among w pb pb pb' d1 (ILink esc parts) d2); try assumption; [apply (wI_link Loose esc parts)|]. rewrite E1, E2. apply io_link; [tauto|apply stripped_none].
Qed.
(** a handler that writes some texts when called with the three parts of the link: they appear once, in the place of the link *)
Theorem C23_handler : forall w pb pb' d1 d2 s1 s2 parts f ws v out o1 o2, setting w d1 (ILink false parts) d2 s1 s2 ->
  items_out w [] [] None pb false false d1 o1 -> items_out w [] [] pb pb' false false d2 o2 -> pl_links (w_plat w) = true -> rg_link (w_reg w) = Some f ->
  acts w [] f (lit "link") [JStr (link_arg parts 0); JStr (link_arg parts 1); JStr (link_arg parts 2)] [] None None false (writes ws v) ->
  helper_out w (last_after false d1) (next_before false d2) (writes ws v) out ->
  renders (w_plat w) (w_reg w) (w_data w) (s1 ++ (lit "[[" ++ join [124%N] parts ++ lit "]]") ++ s2) (o1 ++ out ++ o2).
Proof.
  intros w pb pb' d1 d2 s1 s2 parts f ws v out o1 o2 Hs H1 H2 Hl Hf Hx Hy. apply (among w pb pb pb' d1 (ILink false parts) d2); try assumption; [apply (wI_link Loose false parts)|].
  eapply io_link_handler; try eassumption. cbn; lia.
Qed.
(** any handler, at any depth: it is run exactly once, with href, label and title as strings, no hash arguments and no block *)
Theorem C23_handler_called_once : forall K en src l parts f st, node_is Loose (pl_penv (en_plat en)) src (NLink l) (ILink false parts) ->
  table (en_plat en) -> pl_links (en_plat en) = true -> rg_link (en_reg en) = Some f -> count_site (SHelper (lit "link")) (r_stack st) < 32 ->
  exists ctx, hc_name ctx = lit "link" /\ hc_args ctx = [JStr (link_arg parts 0); JStr (link_arg parts 1); JStr (link_arg parts 2)]
    /\ hc_params ctx = [] /\ hc_text ctx = None /\ hc_property ctx = None
    /\ node_body K en src (NLink l) st = match run K en (f ctx None) (up_stack (SHelper (lit "link") :: r_stack st) st) with
                                         | ROk _ s => ROk tt (pop_stack s) | RErr e s => RErr e s | RPanic p => RPanic p | RFuel => RFuel end.
Proof.
  intros K en src l parts f st Hn Ht Hl Hr Hc. inversion Hn as [| | | | | |l0 e0 p0 Hk| | ]; subst. destruct Hk as (H1 & H2 & H3 & H4 & H5 & H6).
  set (c := link_call src l (link_arg parts 0) (link_arg parts 1) (link_arg parts 2)). set (st1 := up_stack (SHelper (lit "link") :: r_stack st) st).
  assert (Ho : pl_order (en_plat en) src c = []) by (apply Permutation_nil, Permutation_sym; exact (Ht src c)).
  destruct (invoke_ok K en src (lit "link") (ByRef f) c None None None st Hc [JStr (link_arg parts 0); JStr (link_arg parts 1); JStr (link_arg parts 2)] [None; None; None] st1 [] [] st1) with (f := f)
    as (ctx & (X1 & X2 & X3 & X4 & X5 & X6 & X7) & _ & E).
  - repeat (eapply values_cons; [apply value_literal|]). constructor.
  - unfold hash_of. rewrite Ho. exists [], []. repeat split; constructor.
  - reflexivity.
  - exists ctx. repeat (split; [assumption|]). cbn [node_body]. rewrite H1. cbn [need]. rewrite bind_ret, Hl, Hr. unfold link_. rewrite H4, H5, H6. cbn [need]. rewrite !bind_ret.
    fold c. change link_name with (lit "link"). unfold bind. rewrite E. fold st1. destruct (run K en (f ctx None) st1); reflexivity.
Qed.

(** ** C46: whitespace control *)
(** text between two tags loses exactly the whitespace at its start if the tag before ends in [~], and the
    whitespace at its end if the tag after starts with [~].  Missing for the full property: the places of [~] that
    [regular] excludes (there the code is wrong, see below), and [~] also strips values, links and what helpers write *)
Theorem C46_whitespace_partial : forall w pb pb' d1 d2 s1 s2 x y o1 o2, setting w d1 (IText x) d2 s1 s2 ->
  items_out w [] [] None pb false false d1 o1 -> items_out w [] [] pb pb' false false d2 o2 ->
  stripped (last_after false d1) (next_before false d2) x y ->
  renders (w_plat w) (w_reg w) (w_data w) (s1 ++ x ++ s2) (o1 ++ y ++ o2).
Proof. intros w pb pb' d1 d2 s1 s2 x y o1 o2 Hs H1 H2 Hy. apply (among w pb pb pb' d1 (IText x) d2); try assumption; [apply wI_text|]. constructor. exact Hy. Qed.
Theorem C46_no_tilde : forall w pb pb' d1 d2 s1 s2 x o1 o2, setting w d1 (IText x) d2 s1 s2 ->
  items_out w [] [] None pb false false d1 o1 -> items_out w [] [] pb pb' false false d2 o2 -> last_after false d1 = false -> next_before false d2 = false ->
  renders (w_plat w) (w_reg w) (w_data w) (s1 ++ x ++ s2) (o1 ++ x ++ o2).
Proof. intros w pb pb' d1 d2 s1 s2 x o1 o2 Hs H1 H2 E1 E2. apply (C46_whitespace_partial w pb pb' d1 d2); try assumption. rewrite E1, E2. apply stripped_none. Qed.
(** the text of an item between two tags is determined by the two [~] *)
Theorem C46_stripped_unique : forall s e x, exists y, stripped s e x y /\ forall z, stripped s e x z -> z = y.
Proof.
  intros s e x. exists (trimmed s e x). split; [apply trim_stripped|]. intros z Hz. apply stripped_trim in Hz. congruence.
Qed.
(** where the code gets [~] wrong: each of these contradicts the English property, on the real grammar *)
Definition ws_data : json := JObj [(lit "a", JStr (lit " A ")); (lit "l", JArr [JBool true; JBool true])].
Definition ws (src : str) : ares str := once (ins (lit "p") (lit " P ") reg0) src ws_data.
Theorem C46_refuted :
  (* a value next to [~] is stripped *)
  ws (lit "{{a}}{{~a}}") = AOk (lit " A A ")
  (* [~] followed by a blank is ignored *)
  /\ ws (lit "x {{~ a}}") = AOk (lit "x  A ")
  (* [~] before [{{else}}] does not strip, [~] before the closing tag strips the main body instead *)
  /\ ws (lit "{{#if true}}a {{~else}}b{{/if}}") = AOk (lit "a ") /\ ws (lit "{{#if true}}a {{else}}b{{~/if}}") = AOk (lit "a")
  (* [~] after the closing tag of a block that is not shown does not strip *)
  /\ ws (lit "{{#if false}}x{{/if~}}  b") = AOk (lit "  b")
  (* [~] after the opening tag strips the else branch *)
  /\ ws (lit "{{#if false~}}x{{else}} b{{/if}}") = AOk (lit "b")
  (* and the text after an inner block *)
  /\ ws (lit "{{#if true~}}a{{#if true}}b{{/if}} c{{/if}}") = AOk (lit "abc")
  (* [~] after a partial strips the text of the partial *)
  /\ ws (lit "{{> p~}} x") = AOk (lit "P x")
  (* [~] at the end of the body of each strips the start of the next round *)
  /\ ws (lit "{{#each l}} {{a~}}{{/each}}") = AOk (lit "  A  A ").
Proof. vm_compute. repeat split. Qed.

(** ** C56: how values are shown *)
(** every value has exactly one text *)
Theorem C56_shown_total : forall fstr v, exists s, shown fstr v s.
Proof.
  intros fstr v. destruct v as [|b|n|s|l|m].
  - eexists; constructor.
  - destruct b; eexists; constructor.
  - destruct n as [n|z|f].
    + exists (N_str n). constructor. apply decimal_N_str.
    + destruct z as [|p|p].
      * eexists. apply (shown_whole _ 0). apply decimal_N_str.
      * eexists. apply (shown_whole _ (Npos p)). apply decimal_N_str.
      * eexists. apply shown_negative. apply decimal_N_str.
    + eexists; constructor.
  - eexists; constructor.
  - eexists. constructor. apply decimal_N_str.
  - eexists; constructor.
Qed.
Theorem C56_shown_unique : forall fstr v s s', shown fstr v s -> shown fstr v s' -> s = s'.
Proof. intros fstr v s s' H H'. apply shown_stringify in H, H'. congruence. Qed.
Theorem C56_value_text : forall pl reg data n v x, table pl -> name_ok n -> assoc n (rg_helpers reg) = None -> has_field data n v ->
  (renders pl reg data (lit "{{{" ++ n ++ lit "}}}") x <-> shown (pl_fstr pl) v x).
Proof.
  intros pl reg data n v x Ht Hn Hh Hv. split; [|apply (fun Hx => C19_triple_stash_verbatim pl reg data n v x [] [] Ht Hn Hh Hv Hx no_gap no_gap)]. intros H.
  destruct (C56_shown_total (pl_fstr pl) v) as (s & Hs). pose proof (C19_triple_stash_verbatim pl reg data n v s [] [] Ht Hn Hh Hv Hs no_gap no_gap) as H'. cbn [app] in H'.
  destruct (H []) as (N & HN). destruct (H' []) as (N' & HN'). specialize (HN (N + N') ltac:(lia)). specialize (HN' (N + N') ltac:(lia)).
  rewrite HN in HN'. injection HN' as ->. exact Hs.
Qed.
Example C56_nonvacuous : let data := JObj [(lit "l", JArr [JNull; JBool true; JNull]); (lit "n", JNum (NegInt (-12))); (lit "o", JObj [])] in
  shown (pl_fstr pl0) (JArr [JNull; JBool true; JNull]) (lit "Array[3]") /\ once reg0 (lit "{{{l}}}|{{{n}}}|{{{o}}}") data = AOk (lit "Array[3]|-12|Object").
Proof.
  split; [|vm_compute; reflexivity]. change (lit "Array[3]") with (lit "Array[" ++ lit "3" ++ lit "]"). constructor. apply (decimal_N_str 3).
Qed.

(** ** A worked example of the semantics: values, if/else, each, a partial with context and hash, a link handler, whitespace control *)
Definition var (n : string) : callx := Call (HdName (lit n)) [] [] [].
Definition show (n : string) : item := ICall false nt false (var n).
Definition greet_p : list item := [IText (lit "("); show "k"; ICall false nt false (Call HdThis [] [] []); IText (lit ")")].
Definition greet : list item :=
  [IText (lit "Hi "); ICall false (mkTildes false true) false (var "name"); IText (lit "  ");
   IBlock false (Call (HdName (lit "if")) [] [EPath (HdName (lit "ok")) []] []) nt [IText (lit "yes")]
     [(Some (Call (HdName (lit "if")) [] [EPath (HdName (lit "none")) []] []), nt, []); (None, nt, [IText (lit " no "); show "name"])] nt;
   IBlock false (Call (HdName (lit "each")) [] [EPath (HdName (lit "l")) []] []) nt
     [IText (lit "<"); ICall true nt false (Call HdThis [] [] []); ICall false nt false (Call (HdLocal (lit "index")) [] [] []); IText (lit ">")] [] nt;
   ICall false nt true (Call (HdName (lit "p")) [] [EPath (HdName (lit "name")) []] [(lit "k", EStr false [SChar 61%N])]);
   IDyn false nt true (var "pick") [EPath (HdName (lit "name")) []] [(lit "k", EArr [61%N])]; IDyn true nt false (var "pick") [ENull] [];
   ILink false [lit "h"; lit "l"]; show "gone"; IEscaped (lit "z")].
Definition greet_data : json := JObj [(lit "l", JArr [JStr (lit "&"); JBool true]); (lit "name", JStr (lit "B&B")); (lit "ok", JBool false); (lit "pick", JStr (lit "p"))].
Definition greet_reg : registry :=
  mkReg (rg_helpers reg0) (Some h_link) (rg_missing reg0) (rg_block_missing reg0)
    (match template_compile pl0 (mkOpts (lit "p") 0 0) (doc_text greet_p) with AOk te => [(lit "p", te)] | _ => [] end)
    (rg_escape reg0) (rg_strict reg0).
Definition greet_world : world := mkWorld pl0 greet_reg greet_data [(lit "p", greet_p)].
Definition greet_out : str := lit "Hi B&amp;B no B&amp;B<&0><true1>(=B&amp;B)(=B&amp;B)p<a href=""h"" title=""l"">l</a>{{z}}".
Lemma greet_fits : fits greet_world.
Proof.
  split; [intros src c; apply Permutation_refl|]. intros n d H. cbn [assoc greet_world w_docs] in H. destruct (streq n (lit "p")) eqn:E; [|discriminate H]. injection H as <-.
  split; [unfold doc_ok, greet_p, show, var; ok_items|]. split; [repeat constructor|]. split.
  { intros l c m s m' X. apply (f_equal (@rev _)) in X. rewrite rev_app_distr in X. discriminate X. }
  apply streq_eq in E. subst n. eexists. exists (mkOpts (lit "p") 0 0), (doc_text greet_p). split; [vm_compute; reflexivity|]. split; [apply (doc_canon pe0); unfold doc_ok, greet_p, show, var; ok_items|vm_compute; reflexivity].
Qed.
Lemma greet_ok : doc_ok pe0 greet.
Proof. unfold doc_ok, greet, show, var. ok_items. Qed.
Lemma greet_regular : Forall (regular greet_world) greet.
Proof.
  unfold greet, show, var. repeat apply Forall_cons; try apply Forall_nil; try (constructor; fail).
  - apply reg_block; try reflexivity; try discriminate; repeat constructor; discriminate.
  - apply reg_block; try reflexivity; try discriminate; try (repeat constructor; fail).
  - apply reg_partial. reflexivity.
  - apply reg_dyn_partial. reflexivity.
Qed.
Ltac see := first [apply pv_name, find_in_scopes_spec; reflexivity|apply pv_this, this_value_spec; reflexivity|eapply pv_local; [reflexivity|discriminate|apply find_parts_spec; reflexivity]].
Ltac notvar := let H := fresh in let E := fresh in let n := fresh in intros n H; destruct H as (_ & E & ?); subst n; try contradiction; reflexivity.
Ltac nov := let v := fresh in let H := fresh in intros v H; inversion H; subst; match goal with X : visible _ _ _ _ |- _ => apply find_in_scopes_spec in X; discriminate X end.
Lemma greet_means : items_out greet_world [] [] None None false false greet greet_out.
Proof.
  assert (Hw : stripped true false (lit "  ") []).
  { exists (lit "  "), []. repeat split; try (intros c H; apply white_ws; cbn [In lit] in H; cbn in H; intuition (subst; reflexivity)); try (intros; discriminate). }
  assert (Z0 : shown (pl_fstr pl0) (JNum (PosInt 0)) (lit "0")) by (constructor; apply (decimal_N_str 0)).
  assert (Z1 : shown (pl_fstr pl0) (JNum (PosInt 1)) (lit "1")) by (constructor; apply (decimal_N_str 1)).
  change greet_out with (lit "Hi " ++ lit "B&amp;B" ++ [] ++ (lit " no " ++ lit "B&amp;B" ++ []) ++ ((lit "<" ++ lit "&" ++ lit "0" ++ lit ">" ++ []) ++ (lit "<" ++ lit "true" ++ lit "1" ++ lit ">" ++ []) ++ [])
    ++ (lit "(" ++ lit "=" ++ lit "B&amp;B" ++ lit ")" ++ []) ++ (lit "(" ++ lit "=" ++ lit "B&amp;B" ++ lit ")" ++ []) ++ lit "p" ++ lit "<a href=""h"" title=""l"">l</a>" ++ [] ++ lit "{{z}}" ++ []).
  eapply out_cons. { constructor. apply stripped_none. }
  eapply out_cons. { change (lit "B&amp;B") with (written (rg_escape (w_reg greet_world)) (lit "B&B")). eapply (io_value _ _ _ _ _ _ false); [apply cv_variable; [notvar|see]|constructor|apply stripped_none]. }
  eapply out_cons. { constructor. exact Hw. }
  eapply out_cons.
  { eapply io_if_else; [repeat split; [exists if_helper; split; reflexivity|cbn; lia|apply av_path; see|exists [], []; split; [apply hv_nil|split; constructor]]|right; left; reflexivity| |].
    - eapply (else_plain _ _ _ _ [_] _ []); [reflexivity| |reflexivity|intros x []].
      apply Forall_cons; [|apply Forall_cons; [intros c X; discriminate X|apply Forall_nil]]. intros c X. injection X as <-.
      eexists. split; [eapply cv_helper; [eapply called_helper; [repeat split|reflexivity]|cbn; lia|apply as_cons; [apply av_no_path; nov|apply as_nil]|apply hv_nil|split; [constructor|constructor]|]|].
      + intros ctx t E1 E2 E3 E4 E5 Et K en st _. destruct t; [destruct Et as [Et _]; discriminate Et; discriminate|]. destruct ctx; cbn in E2; subst; reflexivity.
      + intros (u & U & F). injection U as <-. apply F. right. left. reflexivity.
    - apply else_some. cbn [br_body snd]. eapply out_cons; [constructor; apply stripped_none|]. eapply out_cons; [|apply out_nil].
      change (lit "B&amp;B") with (written (rg_escape (w_reg greet_world)) (lit "B&B")). eapply (io_value _ _ _ _ _ _ false); [apply cv_variable; [notvar|see]|constructor|apply stripped_none]. }
  eapply out_cons.
  { eapply io_each; [repeat split; [exists each_helper; split; reflexivity|cbn; lia|apply av_path; see|exists [], []; split; [apply hv_nil|split; constructor]]|left; eexists; split; reflexivity|].
    eapply round_next; [|eapply round_next; [|apply round_none]].
    - eapply out_cons; [constructor; apply stripped_none|]. eapply out_cons; [eapply (io_value _ _ _ _ _ _ true); [apply cv_variable; [notvar|see]|constructor|apply stripped_none]|].
      eapply out_cons; [|eapply out_cons; [constructor; apply stripped_none|apply out_nil]].
      change (lit "0") with (written (rg_escape (w_reg greet_world)) (lit "0")). eapply (io_value _ _ _ _ _ _ false); [apply cv_variable; [notvar|see]|exact Z0|apply stripped_none].
    - eapply out_cons; [constructor; apply stripped_none|]. eapply out_cons; [eapply (io_value _ _ _ _ _ _ true); [apply cv_variable; [notvar|see]|constructor|apply stripped_none]|].
      eapply out_cons; [|eapply out_cons; [constructor; apply stripped_none|apply out_nil]].
      change (lit "1") with (written (rg_escape (w_reg greet_world)) (lit "1")). eapply (io_value _ _ _ _ _ _ false); [apply cv_variable; [notvar|see]|exact Z1|apply stripped_none]. }
  eapply out_cons.
  { eapply (io_partial _ _ _ _ _ _ _ _ _ _ _ _ _ (lit "p") greet_p); [apply name_is|intros []|right; split; [left; discriminate|reflexivity]| |].
    - eexists _, _, _. split; [apply as_cons; [apply av_path; see|apply as_nil]|]. split; [apply hv_cons; [apply av_str|apply hv_nil]|]. split; [split; [repeat constructor|apply Permutation_refl]|reflexivity].
    - eapply out_cons; [constructor; apply stripped_none|]. eapply out_cons.
      { change (lit "=") with (written (rg_escape (w_reg greet_world)) (lit "=")) at 1. eapply (io_value _ _ _ _ _ _ false); [apply cv_variable; [notvar|see]|constructor|apply stripped_none]. }
      eapply out_cons; [|eapply out_cons; [constructor; apply stripped_none|apply out_nil]].
      change (lit "B&amp;B") with (written (rg_escape (w_reg greet_world)) (lit "B&B")). eapply (io_value _ _ _ _ _ _ false); [apply cv_variable; [notvar|see]|constructor|apply stripped_none]. }
  eapply out_cons.
  { eapply (io_dyn_partial _ _ _ _ _ _ _ _ _ _ _ _ _ (lit "p") greet_p); [apply cv_variable; [notvar|see]|constructor|intros []|right; split; [left; discriminate|reflexivity]| |].
    - eexists _, _, _. split; [apply as_cons; [apply av_path; see|apply as_nil]|]. split; [apply hv_cons; [apply av_arr|apply hv_nil]|]. split; [split; [repeat constructor|apply Permutation_refl]|reflexivity].
    - eapply out_cons; [constructor; apply stripped_none|]. eapply out_cons.
      { change (lit "=") with (written (rg_escape (w_reg greet_world)) (lit "=")) at 1. eapply (io_value _ _ _ _ _ _ false); [apply cv_variable; [notvar|see]|constructor|apply stripped_none]. }
      eapply out_cons; [|eapply out_cons; [constructor; apply stripped_none|apply out_nil]].
      change (lit "B&amp;B") with (written (rg_escape (w_reg greet_world)) (lit "B&B")). eapply (io_value _ _ _ _ _ _ false); [apply cv_variable; [notvar|see]|constructor|apply stripped_none]. }
  eapply out_cons. { eapply (io_dyn_value _ _ _ _ _ _ true); [apply cv_variable; [notvar|see]|constructor|apply stripped_none]. }
  eapply out_cons.
  { eapply (io_link_handler _ _ _ _ _ _ _ _ (prints _ false)); [reflexivity|reflexivity|cbn; lia| |apply (ho_prints _ _ _ _ false); apply stripped_none].
    intros ctx t E1 E2 E3 E4 E5 _ K en st _. destruct ctx; cbn in E2; subst; reflexivity. }
  eapply out_cons. { apply io_missing. apply cv_missing; [notvar|nov|right; right; split; reflexivity]. }
  eapply out_cons. { constructor. apply stripped_none. }
  apply out_nil.
Qed.
Example C55_nonvacuous : fits greet_world /\ doc_ok (pl_penv pl0) greet /\ Forall (regular greet_world) greet
  /\ items_out greet_world [] [] None None false false greet greet_out /\ once greet_reg (doc_text greet) greet_data = AOk greet_out
  /\ doc_text greet = lit "Hi {{name~}}  {{#if ok}}yes{{else if none}}{{else}} no {{name}}{{/if}}{{#each l}}<{{{this}}}{{@index}}>{{/each}}{{> p name k=""=""}}{{> (pick) name k=[=]}}{{{(pick) null}}}[[h|l]]{{gone}}\{{z}}".
Proof.
  split; [exact greet_fits|]. split; [exact greet_ok|]. split; [exact greet_regular|]. split; [exact greet_means|]. split; [vm_compute; reflexivity|reflexivity].
Qed.

(** the hypotheses of C20-C23 and C46 are met at every item of this document *)
Definition misc : list item :=
  [IText (lit "a "); IComment (lit " {{c "); IRawComment (lit "}}"); IText (lit " b"); IEscaped (lit "name"); ILink false [lit "u\|v"; []; lit "w|\]x"]; ILink true [lit "u"];
   IRaw (Call (HdName (lit "raw")) [] [] []) nt (doc_text [IText (lit " x } "); show "name"; IText (lit " ")]) nt; IText (lit " e ")].
Definition misc_world : world := mkWorld pl0 reg0 greet_data [].
Lemma misc_setting : fits misc_world /\ doc_ok (pl_penv (w_plat misc_world)) misc /\ Forall (regular misc_world) misc.
Proof.
  split; [apply (alone_fits pl0 reg0 greet_data); intros src c; apply Permutation_refl|]. split; [unfold doc_ok, misc, show, var; ok_items|repeat constructor].
Qed.
Lemma canon_part pe d a b l : items_ok pe a b d -> incl l d -> doc_writes Loose l (doc_text l).
Proof.
  intros H Hi. exists (map item_text l). split; [|apply flat_map_concat_map]. induction l as [|i l IH]; [constructor|]. constructor.
  - eapply item_canon; [apply Nat.lt_succ_diag_r|]. eapply items_sub; [exact H|]. apply Hi. now left.
  - apply IH. intros j Hj. apply Hi. now right.
Qed.
Lemma setting_canon w d1 i d2 : fits w -> doc_ok (pl_penv (w_plat w)) (d1 ++ i :: d2) -> Forall (regular w) (d1 ++ i :: d2) ->
  setting w d1 i d2 (doc_text d1) (doc_text d2).
Proof.
  intros Hf Hd Hr. repeat (split; [assumption|]). split; eapply canon_part; try exact Hd; intros j Hj; apply in_or_app; [now left|right; now right].
Qed.
Lemma misc_split k i : nth_error misc k = Some i -> exists d1 d2, setting misc_world d1 i d2 (doc_text d1) (doc_text d2).
Proof.
  intros H. apply nth_error_split in H. destruct H as (d1 & d2 & E & _). exists d1, d2. destruct misc_setting as (A & B & C). rewrite E in B, C. now apply setting_canon.
Qed.
Example C20_nonvacuous : exists d1 d2 d1' d2', setting misc_world d1 (IComment (lit " {{c ")) d2 (doc_text d1) (doc_text d2) /\ setting misc_world d1' (IRawComment (lit "}}")) d2' (doc_text d1') (doc_text d2').
Proof. destruct (misc_split 1 _ eq_refl) as (d1 & d2 & H1). destruct (misc_split 2 _ eq_refl) as (d1' & d2' & H2). exists d1, d2, d1', d2'. auto. Qed.
Example C21_nonvacuous : exists d1 d2, setting misc_world d1 (IEscaped (lit "name")) d2 (doc_text d1) (doc_text d2).
Proof. exact (misc_split 4 _ eq_refl). Qed.
Example C22_nonvacuous : exists d1 d2, setting misc_world d1 (IRaw (Call (HdName (lit "raw")) [] [] []) nt (lit " x } {{name}} ") nt) d2 (doc_text d1) (doc_text d2)
  /\ assoc (lit "raw") (rg_helpers (w_reg misc_world)) = None.
Proof. destruct (misc_split 7 _ eq_refl) as (d1 & d2 & H). exists d1, d2. split; [exact H|reflexivity]. Qed.
Example C23_nonvacuous : (exists d1 d2 d1' d2', setting misc_world d1 (ILink false [lit "u\|v"; []; lit "w|\]x"]) d2 (doc_text d1) (doc_text d2) /\ setting misc_world d1' (ILink true [lit "u"]) d2' (doc_text d1') (doc_text d2'))
  /\ map (link_arg [lit "u\|v"; []; lit "w|\]x"]) [0; 1; 2] = [lit "u|v"; []; lit "w|]x"] /\ link_arg [lit "a\nb\|"] 0 = lit "a" ++ [10%N] ++ lit "b|".
Proof.
  split; [|split; reflexivity]. destruct (misc_split 5 _ eq_refl) as (d1 & d2 & H1). destruct (misc_split 6 _ eq_refl) as (d1' & d2' & H2). exists d1, d2, d1', d2'. auto.
Qed.
Example misc_renders : once reg0 (doc_text misc) greet_data = AOk (lit "a  b{{name}}[[u\|v||w|\]x]][[u]] x } {{name}}  e ")
  /\ doc_text misc = lit "a {{! {{c }}{{!--}}--}} b\{{name}}[[u\|v||w|\]x]]\[[u]]{{{{raw}}}} x } {{name}} {{{{/raw}}}} e ".
Proof. split; [vm_compute; reflexivity|reflexivity]. Qed.
Example C46_nonvacuous : exists d1 d2, setting greet_world d1 (IText (lit "  ")) d2 (doc_text d1) (doc_text d2) /\ last_after false d1 = true.
Proof.
  exists (firstn 2 greet), (skipn 3 greet). split; [|reflexivity]. apply setting_canon; [exact greet_fits|exact greet_ok|exact greet_regular].
Qed.
