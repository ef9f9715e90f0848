(** * Props_Fail: a template that cannot be rendered fails with the error of the source semantics, after the output written so far (C64). *)
From Coq Require Import Lia String.
From Verif Require Import Str Regex Lexer Json Ast ErrInfo Parser Messages Render Helpers Registry Tests StrFacts RegexFacts Spec_Lexer Spec_Values ValueFacts Spec_Helpers
  LookupFacts Spec_Render Spec_Blocks Spec_Calls CycleFacts HashFacts BuiltinFacts Props_Values Props_Blocks Props_Calls Spec_Source SynBlock SynLayout Props_Source Spec_Sem SemFacts SemItems Props_Sem
  Spec_Fail FailFacts FailItems.
Open Scope nat_scope. Open Scope list_scope.

(** ** C64 *)
Lemma stops_run pl reg data docs d s out err name wr o te :
  let w := mkWorld pl reg data docs in
  fits w -> doc_ok (pl_penv pl) d -> doc_writes Loose d s -> Forall (regular w) d -> items_err w name [] [] None false false d out err ->
  (forall h s, exists n, wr h s = WOk n) -> template_compile pl o s = AOk te ->
  exists N, forall fuel, N <= fuel -> exists st, render_template_go fuel (mkEnv pl reg name data wr) (te_tpl te) [] = stopped err st /\ concat (r_out st) = out.
Proof.
  intros w Hf Hd Hs Hr Ho Hw Ht. destruct (compiled w o d s te Hd Hs Ht) as (ns & E & Hn).
  set (en := mkEnv pl reg name data wr).
  destruct (err_runs w en eq_refl eq_refl eq_refl Hw Hf) as (_ & G & _).
  destruct (G [] [] None false false d out err Ho s ns false Hn Hr ltac:(discriminate) [] eq_refl) as (N & HN). exists N. intros fuel Hfu.
  destruct (HN fuel (r_new []) None None Hfu ltac:(repeat split) eq_refl ltac:(congruence) ltac:(reflexivity)) as (st & E1 & E2).
  exists st. split; [|exact E2]. unfold render_template_go. rewrite E.
  unfold render_. cbn [tp_src tp_node children]. rewrite plain_step. exact E1.
Qed.
Lemma compiles pl d s o : doc_ok (pl_penv pl) d -> doc_writes Loose d s -> exists te, template_compile pl o s = AOk te.
Proof. intros Hd Hs. destruct (compile_printed Loose (pl_penv pl) o d s Hd Hs) as (ns & fs & E & _). unfold template_compile. rewrite E. eauto. Qed.
(** the error, and the output that a writer accepting everything has received *)
Theorem C64_semantics : forall pl reg data docs d s out err name wr o te,
  let w := mkWorld pl reg data docs in
  fits w -> doc_ok (pl_penv pl) d -> doc_writes Loose d s -> Forall (regular w) d -> items_err w name [] [] None false false d out (Fails err) ->
  (forall h s, exists n, wr h s = WOk n) -> template_compile pl o s = AOk te ->
  exists N, forall fuel, N <= fuel -> exists parts, template_render fuel pl reg name (te_tpl te) data wr [] = (AErr (XRender err), parts) /\ concat parts = out.
Proof.
  intros pl reg data docs d s out err name wr o te w Hf Hd Hs Hr Ho Hw Ht. destruct (stops_run _ _ _ _ _ _ _ _ _ wr _ _ Hf Hd Hs Hr Ho Hw Ht) as (N & HN). exists N. intros fuel Hfu.
  destruct (HN fuel Hfu) as (st & E1 & E2). exists (r_out st). split; [|exact E2]. unfold template_render. rewrite E1. reflexivity.
Qed.
(** where the semantics says that a helper panics, rendering panics *)
Theorem C64_panics : forall pl reg data docs d s out name wr o te,
  let w := mkWorld pl reg data docs in
  fits w -> doc_ok (pl_penv pl) d -> doc_writes Loose d s -> Forall (regular w) d -> items_err w name [] [] None false false d out Panics ->
  (forall h s, exists n, wr h s = WOk n) -> template_compile pl o s = AOk te ->
  exists N, forall fuel, N <= fuel -> fst (template_render fuel pl reg name (te_tpl te) data wr []) = APanic PanUnwrap.
Proof.
  intros pl reg data docs d s out name wr o te w Hf Hd Hs Hr Ho Hw Ht. destruct (stops_run _ _ _ _ _ _ _ _ _ wr _ _ Hf Hd Hs Hr Ho Hw Ht) as (N & HN). exists N. intros fuel Hfu.
  destruct (HN fuel Hfu) as (st & E1 & E2). unfold template_render. rewrite E1. reflexivity.
Qed.
(** the answer of a call that stops *)
Definition answer {A} (s : stop) : ares A := match s with Fails e => AErr (XRender e) | Panics => APanic PanUnwrap end.
Theorem C64_once : forall pl reg data docs d s out err name,
  let w := mkWorld pl reg data docs in
  fits w -> doc_ok (pl_penv pl) d -> doc_writes Loose d s -> Forall (regular w) d -> items_err w name [] [] None false false d out err ->
  exists N, forall fuel, N <= fuel -> registry_once fuel pl reg name s data = answer err.
Proof.
  intros pl reg data docs d s out err name w Hf Hd Hs Hr Ho. destruct (compiles pl d s (mkOpts name 0 0) Hd Hs) as (te & Ht).
  destruct (stops_run pl reg data docs d s out err name string_writer _ te Hf Hd Hs Hr Ho ltac:(intros; eexists; reflexivity) Ht) as (N & HN).
  exists N. intros fuel Hfu. destruct (HN fuel Hfu) as (st & E1 & E2). unfold registry_once. rewrite Ht. unfold to_str, template_render. rewrite E1. destruct err; reflexivity.
Qed.
Theorem C64_render : forall pl reg data docs d s out err name o te,
  let w := mkWorld pl reg data docs in
  fits w -> doc_ok (pl_penv pl) d -> doc_writes Loose d s -> Forall (regular w) d -> items_err w name [] [] None false false d out err ->
  template_compile pl o s = AOk te -> assoc name (rg_templates reg) = Some te ->
  exists N, forall fuel, N <= fuel -> registry_render fuel pl reg name data = answer err.
Proof.
  intros pl reg data docs d s out err name o te w Hf Hd Hs Hr Ho Ht Hn.
  destruct (stops_run pl reg data docs d s out err name string_writer _ te Hf Hd Hs Hr Ho ltac:(intros; eexists; reflexivity) Ht) as (N & HN).
  exists N. intros fuel Hfu. destruct (HN fuel Hfu) as (st & E1 & E2). unfold registry_render, registry_render_to_write, to_str, template_render. rewrite Hn, E1. destruct err; reflexivity.
Qed.
(** with [Registry::render_to_write] the caller has the output up to the failure *)
Theorem C64_render_to_write : forall pl reg data docs d s out err name o te,
  let w := mkWorld pl reg data docs in
  fits w -> doc_ok (pl_penv pl) d -> doc_writes Loose d s -> Forall (regular w) d -> items_err w name [] [] None false false d out (Fails err) ->
  template_compile pl o s = AOk te -> assoc name (rg_templates reg) = Some te ->
  exists N, forall fuel, N <= fuel -> exists parts, registry_render_to_write fuel pl reg name data string_writer = (AErr (XRender err), parts) /\ concat parts = out.
Proof.
  intros pl reg data docs d s out err name o te w Hf Hd Hs Hr Ho Ht Hn.
  destruct (C64_semantics pl reg data docs d s out err name string_writer _ te Hf Hd Hs Hr Ho ltac:(intros; eexists; reflexivity) Ht) as (N & HN).
  exists N. intros fuel Hfu. destruct (HN fuel Hfu) as (parts & E1 & E2). exists parts. split; [|exact E2]. unfold registry_render_to_write. rewrite Hn, E1. reflexivity.
Qed.
(** a document does not both mean a text and fail, and it fails in one way only *)
Theorem C64_exclusive : forall pl reg data docs d pb o out err name,
  let w := mkWorld pl reg data docs in
  fits w -> doc_ok (pl_penv pl) d -> Forall (regular w) d -> items_out w [] [] None pb false false d o -> items_err w name [] [] None false false d out err -> False.
Proof.
  intros pl reg data docs d pb o out err name w Hf Hd Hr H H'. destruct (C55_once pl reg data docs d _ pb o name Hf Hd (doc_canon _ _ _ Hd) Hr H) as (N & HN). destruct (C64_once pl reg data docs d _ out err name Hf Hd (doc_canon _ _ _ Hd) Hr H') as (N' & HN').
  specialize (HN (N + N') ltac:(lia)). specialize (HN' (N + N') ltac:(lia)). rewrite HN in HN'. destruct err; discriminate HN'.
Qed.
Theorem C64_unique : forall pl reg data docs d out err out' err' name,
  let w := mkWorld pl reg data docs in
  fits w -> doc_ok (pl_penv pl) d -> Forall (regular w) d -> items_err w name [] [] None false false d out err -> items_err w name [] [] None false false d out' err' ->
  err = err' /\ (err <> Panics -> out = out').
Proof.
  intros pl reg data docs d out err out' err' name w Hf Hd Hr H H'. destruct (compiles pl d _ (mkOpts name 0 0) Hd (doc_canon _ _ _ Hd)) as (te & Ht).
  destruct (stops_run pl reg data docs d _ out err name string_writer _ te Hf Hd (doc_canon _ _ _ Hd) Hr H ltac:(intros; eexists; reflexivity) Ht) as (N & HN).
  destruct (stops_run pl reg data docs d _ out' err' name string_writer _ te Hf Hd (doc_canon _ _ _ Hd) Hr H' ltac:(intros; eexists; reflexivity) Ht) as (N' & HN').
  destruct (HN (N + N') ltac:(lia)) as (p & E1 & E2). destruct (HN' (N + N') ltac:(lia)) as (p' & E1' & E2'). rewrite E1 in E1'.
  destruct err, err'; cbn [stopped] in E1'; try discriminate E1'; [injection E1' as -> ->; subst; auto|split; [reflexivity|intros X; contradiction X; reflexivity]].
Qed.

(** ** Failures in their place: text before the failing item is written, what comes after it does not matter *)
Lemma items_err_app w nm scs act pb1 l1 : forall pb s e i l2 o1 out err, items_out w scs act pb pb1 s (next_before e (i :: l2)) l1 o1 ->
  item_err w nm scs act pb1 (last_after s l1) (next_before e l2) i out err -> items_err w nm scs act pb s e (l1 ++ i :: l2) (o1 ++ out) err.
Proof.
  induction l1 as [|j l1 IH]; intros pb s e i l2 o1 out err H1 H2; inversion H1 as [|? ? ? pb2 ? ? ? ? ? oi oj Hi Hj]; subst; [apply err_here; exact H2|]. cbn [app]. rewrite <- app_assoc. apply (err_later _ _ _ _ _ pb2).
  - destruct l1; assumption.
  - apply IH; assumption.
Qed.
(** what [Registry::once] and [Template::render] do for a source that cannot be rendered *)
Definition fails_with (pl : plat) (reg : registry) (data : json) (name src out : str) (err : rerr) : Prop :=
  exists N, forall fuel, N <= fuel -> registry_once fuel pl reg name src data = AErr (XRender err)
    /\ exists te parts, template_compile pl (mkOpts name 0 0) src = AOk te /\ template_render fuel pl reg name (te_tpl te) data string_writer [] = (AErr (XRender err), parts) /\ concat parts = out.
Theorem C64_in_place : forall w d1 i d2 s1 si s2 pb o1 out err name, setting w d1 i d2 s1 s2 -> item_writes Loose i si ->
  items_out w [] [] None pb false (before i) d1 o1 -> item_err w name [] [] pb (last_after false d1) (next_before false d2) i out (Fails err) ->
  fails_with (w_plat w) (w_reg w) (w_data w) name (s1 ++ si ++ s2) (o1 ++ out) err.
Proof.
  intros [pl reg data docs] d1 i d2 s1 si s2 pb o1 out err name (Hf & Hd & Hr & Hs1 & Hs2) Hsi H1 H. cbn [w_plat w_reg w_data] in *. pose proof (writes_among _ _ _ _ _ _ Hs1 Hsi Hs2) as Hs. unfold fails_with.
  assert (He : items_err (mkWorld pl reg data docs) name [] [] None false false (d1 ++ i :: d2) (o1 ++ out) (Fails err)) by (eapply items_err_app; eassumption).
  destruct (C64_once pl reg data docs _ _ _ _ name Hf Hd Hs Hr He) as (N & HN).
  destruct (compiles pl _ _ (mkOpts name 0 0) Hd Hs) as (te & Ht).
  destruct (C64_semantics pl reg data docs _ _ _ err name string_writer _ te Hf Hd Hs Hr He ltac:(intros; eexists; reflexivity) Ht) as (N' & HN').
  exists (N + N'). intros fuel Hfu. split; [apply HN; lia|]. destruct (HN' fuel ltac:(lia)) as (parts & E1 & E2). exists te, parts. auto.
Qed.
Lemma name_text n : path_text (HdName n) [] = n.
Proof. unfold path_text. cbn [head_text tail_text]. apply app_nil_r. Qed.
Lemma name_shown n : path_shown (HdName n) [] = n.
Proof. unfold path_shown. cbn. apply app_nil_r. Qed.
Lemma name_partial n : partial_name (HdName n) [] n.
Proof. split; [symmetry; apply name_shown|left]. split; [reflexivity|]. split; [symmetry; apply name_text|exact I]. Qed.
(** strict mode: [{{n}}] for a name that is neither a helper nor in the data, anywhere in a template *)
Theorem C64_strict_variable : forall w d1 triple m n d2 s1 si s2 pb o1 name, let i := ICall triple m false (Call (HdName n) [] [] []) in
  setting w d1 i d2 s1 s2 -> item_writes Loose i si -> items_out w [] [] None pb false (tl_before m) d1 o1 ->
  rg_strict (w_reg w) = true -> rg_missing (w_reg w) = None -> assoc n (rg_helpers (w_reg w)) = None -> (forall v, ~ has_field (w_data w) n v) ->
  fails_with (w_plat w) (w_reg w) (w_data w) name (s1 ++ si ++ s2) o1 (EVariableNotFound n name).
Proof.
  intros w d1 triple m n d2 s1 si s2 pb o1 name i Hs Hsi H1 Hst Hm Hh Hd. rewrite <- (app_nil_r o1). eapply C64_in_place; [exact Hs|exact Hsi|exact H1|].
  apply ie_call. pose proof (cf_strict w name [] [] (HdName n) [] [] []) as C. rewrite name_shown in C. apply C; clear C.
  - intros k (_ & -> & _). rewrite name_text. exact Hh.
  - intros v Hv. inversion Hv; subst. match goal with X : visible _ _ _ _ |- _ => inversion X; subst end.
    match goal with X : follow _ _ _ |- _ => inversion X; subst end; [eapply Hd; eassumption|]. match goal with X : follow _ [] _ |- _ => inversion X end.
  - intros [X|(s & X)]; discriminate X.
  - exact Hst.
  - intros _. exact Hm.
Qed.
(** a partial that was never registered, anywhere in a template *)
Theorem C64_unknown_partial : forall w d1 triple m n xs hs d2 s1 si s2 pb o1 name, let i := ICall triple m true (Call (HdName n) [] xs hs) in
  setting w d1 i d2 s1 s2 -> item_writes Loose i si -> items_out w [] [] None pb false (tl_before m) d1 o1 -> n <> lit "@partial-block" -> assoc n (rg_templates (w_reg w)) = None ->
  fails_with (w_plat w) (w_reg w) (w_data w) name (s1 ++ si ++ s2) o1 (EPartialNotFound n).
Proof.
  intros w d1 triple m n xs hs d2 s1 si s2 pb o1 name i Hs Hsi H1 Hpb Hn. rewrite <- (app_nil_r o1). eapply C64_in_place; [exact Hs|exact Hsi|exact H1|].
  eapply ie_partial_enter; [apply name_partial|]. apply inf_unknown; [intros []|]. intros [[X _]|X]; contradiction.
Qed.
(** a partial that includes itself, directly: it is entered once, what it writes before the inclusion is written once, and the inclusion fails *)
Theorem C64_self_partial : forall w d1 triple m n d2 s1 si s2 pb o1 name p1 triple' m' xs hs p2 pb' o, let i := ICall triple m true (Call (HdName n) [] [] []) in
  setting w d1 i d2 s1 s2 -> item_writes Loose i si -> items_out w [] [] None pb false (tl_before m) d1 o1 -> n <> lit "@partial-block" ->
  assoc n (w_docs w) = Some (p1 ++ ICall triple' m' true (Call (HdName n) [] xs hs) :: p2) ->
  items_out w [partial_scope [] []] [SPartial n] pb pb' false (tl_before m') p1 o ->
  fails_with (w_plat w) (w_reg w) (w_data w) name (s1 ++ si ++ s2) (o1 ++ o) (EPartialCycle n).
Proof.
  intros w d1 triple m n d2 s1 si s2 pb o1 name p1 triple' m' xs hs p2 pb' o i Hs Hsi H1 Hpb Hn Ho. eapply C64_in_place; [exact Hs|exact Hsi|exact H1|].
  eapply ie_partial; [apply name_partial|intros []|right; split; [left; exact Hpb|exact Hn]|exists [], [], []; split; [apply as_nil|split; [apply hv_nil|split; [split; [constructor|apply Permutation_refl]|reflexivity]]]|].
  rewrite <- (app_nil_r o). eapply items_err_app; [exact Ho|]. eapply ie_partial_enter; [apply name_partial|]. apply inf_cycle. left; reflexivity.
Qed.
Lemma args_length w scs act xs : forall vs, args_value w scs act xs vs -> length vs = length xs.
Proof. induction xs as [|x xs IH]; intros vs H; inversion H; subst; [reflexivity|]. cbn. f_equal. apply IH. assumption. Qed.
(** a built-in helper with the wrong number of arguments, as a statement or as a block, anywhere in a template *)
Theorem C64_arity : forall w d1 d2 s1 si s2 i n lo hi xs pb o1 name vs blk,
  (exists triple m, blk = false /\ i = ICall triple m false (Call (HdName n) [] xs [])) \/ (exists m body bs m', blk = true /\ i = IBlock false (Call (HdName n) [] xs []) m body bs m') ->
  setting w d1 i d2 s1 s2 -> item_writes Loose i si -> items_out w [] [] None pb false (before i) d1 o1 -> In (n, lo, hi) arities -> standard w n ->
  args_value w [] [site_of blk n] xs vs -> ~ (lo <= N.of_nat (length xs) <= hi)%N ->
  fails_with (w_plat w) (w_reg w) (w_data w) name (s1 ++ si ++ s2) o1 (arity_error n lo hi).
Proof.
  intros w d1 d2 s1 si s2 i n lo hi xs pb o1 name vs blk Hi Hs Hsi H1 Hn (f & Hb & Hf) Ha Hl. rewrite <- (app_nil_r o1). eapply C64_in_place; [exact Hs|exact Hsi|exact H1|].
  assert (X : helper_call_fails w name [] [] blk n f xs [] None None (Fails (arity_error n lo hi))).
  { apply hc_run. split; [cbn; lia|]. exists vs, [], []. split; [exact Ha|]. split; [apply hv_nil|]. split; [split; [constructor|apply Permutation_refl]|]. rewrite <- (args_length _ _ _ _ _ Ha) in Hl.
    intros ctx t E1 E2 E3 E4 E5 Ht K en st _. subst. apply (C51_arity (w_plat w) (hc_name ctx) lo hi f ctx t Hn Hb Hl). }
  destruct Hi as [(triple & m & -> & ->)|(m & body & bs & m' & -> & ->)].
  - apply ie_call. eapply cf_helper; [|exact X]. apply called_helper; [|exact Hf]. split; [reflexivity|]. split; [symmetry; apply name_text|exact I].
  - eapply ie_block_helper; eassumption.
Qed.

(** [lookup] with a key that is no string panics, anywhere in a template *)
Theorem C64_lookup_panics : forall w d1 d2 s1 si s2 triple m x y pb o1 name a v, let i := ICall triple m false (Call (HdName (lit "lookup")) [] [x; y] []) in
  setting w d1 i d2 s1 s2 -> item_writes Loose i si -> items_out w [] [] None pb false (tl_before m) d1 o1 -> standard w (lit "lookup") ->
  args_value w [] [SHelper (lit "lookup")] [x; y] [a; v] -> (forall s, v <> JStr s) ->
  exists N, forall fuel, N <= fuel -> registry_once fuel (w_plat w) (w_reg w) name (s1 ++ si ++ s2) (w_data w) = APanic PanUnwrap.
Proof.
  intros [pl reg data docs] d1 d2 s1 si s2 triple m x y pb o1 name a v i (Hf & Hd & Hr & Hs1 & Hs2) Hsi H1 (f & Hb & Hh) Ha Hv. cbn [w_plat w_reg w_data] in *. pose proof (writes_among _ _ _ _ _ _ Hs1 Hsi Hs2) as Hs.
  assert (He : items_err (mkWorld pl reg data docs) name [] [] None false false (d1 ++ i :: d2) (o1 ++ []) Panics).
  { eapply items_err_app; [exact H1|]. apply ie_call. eapply cf_helper; [apply called_helper; [split; [reflexivity|split; [symmetry; apply name_text|exact I]]|exact Hh]|].
    apply hc_run. split; [cbn; lia|]. exists [a; v], [], []. split; [exact Ha|]. split; [apply hv_nil|]. split; [split; [constructor|apply Permutation_refl]|].
    intros ctx t _ E2 _ _ _ _ K en st _. assert (f = lookup_helper) as -> by (unfold builtin in Hb; cbn in Hb; congruence).
    unfold lookup_helper, with_arity, with_arg, ctx_arity, ctx_try_get, ctx_get. rewrite E2. cbn. destruct v; try reflexivity. contradiction (Hv s); reflexivity. }
  exact (C64_once pl reg data docs _ _ _ _ name Hf Hd Hs Hr He).
Qed.

(** ** A worked example: a failure inside a partial inside the second round of each, after output at every level *)
Definition broken_p : list item := [IText (lit "<"); show "x"; IText (lit ">")].
Definition broken : list item :=
  [IText (lit "list:"); IBlock false (Call (HdName (lit "each")) [] [EPath (HdName (lit "l")) []] []) nt
     [IText (lit " "); ICall false nt true (Call (HdName (lit "p")) [] [EPath HdThis []] []); IText (lit ",")] [] nt;
   IText (lit " end")].
Definition broken_data : json := JObj [(lit "l", JArr [JObj [(lit "x", JStr (lit "&"))]; JObj []; JObj [(lit "x", JNull)]])].
Definition broken_reg : registry :=
  mkReg (rg_helpers reg0) (rg_link reg0) (rg_missing reg0) (rg_block_missing reg0)
    (match template_compile pl0 (mkOpts (lit "p") 0 0) (doc_text broken_p) with AOk te => [(lit "p", te)] | _ => [] end)
    (rg_escape reg0) true.
Definition broken_world : world := mkWorld pl0 broken_reg broken_data [(lit "p", broken_p)].
Lemma broken_fits : fits broken_world.
Proof.
  split; [intros src c; apply Permutation_refl|]. intros n d H. cbn [assoc broken_world w_docs] in H. destruct (streq n (lit "p")) eqn:E; [|discriminate H]. injection H as <-.
  split; [unfold doc_ok, broken_p, show, var; ok_items|]. split; [repeat constructor|]. split.
  { intros l c m s m' X. apply (f_equal (@rev _)) in X. rewrite rev_app_distr in X. discriminate X. }
  apply streq_eq in E. subst n. eexists. exists (mkOpts (lit "p") 0 0), (doc_text broken_p). split; [vm_compute; reflexivity|]. split; [apply (doc_canon pe0); unfold doc_ok, broken_p, show, var; ok_items|vm_compute; reflexivity].
Qed.
Lemma broken_ok : doc_ok pe0 broken.
Proof. unfold doc_ok, broken, show, var. ok_items. Qed.
Lemma broken_regular : Forall (regular broken_world) broken.
Proof.
  unfold broken, show, var. repeat apply Forall_cons; try apply Forall_nil; try (constructor; fail).
  apply reg_block; try reflexivity; try discriminate; try (repeat constructor; fail). intros _. right. split; [reflexivity|]. right.
  intros n d H. cbn [assoc broken_world w_docs] in H. destruct (streq n (lit "p")); [|discriminate H]. injection H as <-. reflexivity.
Qed.
Lemma broken_err name : items_err broken_world name [] [] None false false broken (lit "list: <&amp;>, <") (Fails (EVariableNotFound (lit "x") name)).
Proof.
  change (lit "list: <&amp;>, <") with (lit "list:" ++ ((lit " " ++ (lit "<" ++ lit "&amp;" ++ lit ">" ++ []) ++ lit "," ++ []) ++ (lit " " ++ (lit "<" ++ [])))).
  eapply err_later; [constructor; apply stripped_none|]. apply err_here.
  eapply ie_each; [split; [exists each_helper; split; reflexivity|split; [cbn; lia|split; [apply av_path; see|exists [], []; split; [apply hv_nil|split; [constructor|apply Permutation_refl]]]]]|left; eexists; split; reflexivity|].
  eapply round_later.
  - eapply out_cons; [constructor; apply stripped_none|]. eapply out_cons; [|eapply out_cons; [constructor; apply stripped_none|apply out_nil]].
    eapply io_partial; [apply name_partial|intros [X|[]]; discriminate X|right; split; [left; discriminate|reflexivity]| |].
    { eexists _, [], []. split; [apply as_cons; [apply av_path; see|apply as_nil]|]. split; [apply hv_nil|]. split; [split; [constructor|apply Permutation_refl]|reflexivity]. }
    eapply out_cons; [constructor; apply stripped_none|]. eapply out_cons; [|eapply out_cons; [constructor; apply stripped_none|apply out_nil]].
    change (lit "&amp;") with (written (rg_escape (w_reg broken_world)) (lit "&")). eapply (io_value _ _ _ _ _ _ false); [apply cv_variable; [notvar|see]|constructor|apply stripped_none].
  - apply round_here. eapply err_later; [constructor; apply stripped_none|]. apply err_here.
    eapply ie_partial; [apply name_partial|intros [X|[]]; discriminate X|right; split; [left; discriminate|reflexivity]| |].
    { eexists _, [], []. split; [apply as_cons; [apply av_path; see|apply as_nil]|]. split; [apply hv_nil|]. split; [split; [constructor|apply Permutation_refl]|reflexivity]. }
    eapply err_later; [constructor; apply stripped_none|]. apply err_here. apply ie_call.
    apply (cf_strict broken_world name _ _ (HdName (lit "x")) [] [] []); [notvar|nov|intros [X|(s & X)]; discriminate X|reflexivity|intros _; reflexivity].
Qed.
Example C64_nonvacuous : fits broken_world /\ doc_ok (pl_penv pl0) broken /\ Forall (regular broken_world) broken
  /\ items_err broken_world (lit "t") [] [] None false false broken (lit "list: <&amp;>, <") (Fails (EVariableNotFound (lit "x") (lit "t")))
  /\ doc_text broken = lit "list:{{#each l}} {{> p this}},{{/each}} end"
  /\ once broken_reg (doc_text broken) broken_data = AErr (XRender (EVariableNotFound (lit "x") (lit "t"))).
Proof.
  split; [exact broken_fits|]. split; [exact broken_ok|]. split; [exact broken_regular|]. split; [apply broken_err|]. split; [reflexivity|vm_compute; reflexivity].
Qed.
(** the hypotheses of the corollaries *)
Definition loop_p : list item := [IText (lit "a"); ICall false nt true (var "p"); IText (lit "b")].
Definition loop_reg : registry :=
  mkReg (rg_helpers reg0) (rg_link reg0) (rg_missing reg0) (rg_block_missing reg0)
    (match template_compile pl0 (mkOpts (lit "p") 0 0) (doc_text loop_p) with AOk te => [(lit "p", te)] | _ => [] end)
    (rg_escape reg0) true.
Definition loop_world : world := mkWorld pl0 loop_reg broken_data [(lit "p", loop_p)].
Lemma loop_fits : fits loop_world.
Proof.
  split; [intros src c; apply Permutation_refl|]. intros n d H. cbn [assoc loop_world w_docs] in H. destruct (streq n (lit "p")) eqn:E; [|discriminate H]. injection H as <-.
  split; [unfold doc_ok, loop_p, show, var; ok_items|]. split; [repeat constructor|]. split.
  { intros l c m s m' X. apply (f_equal (@rev _)) in X. rewrite rev_app_distr in X. discriminate X. }
  apply streq_eq in E. subst n. eexists. exists (mkOpts (lit "p") 0 0), (doc_text loop_p). split; [vm_compute; reflexivity|]. split; [apply (doc_canon pe0); unfold doc_ok, loop_p, show, var; ok_items|vm_compute; reflexivity].
Qed.
Lemma loop_setting i d2 s2 : doc_ok pe0 (IText (lit "x") :: i :: d2) -> Forall (regular loop_world) (i :: d2) -> s2 = doc_text d2 ->
  setting loop_world [IText (lit "x")] i d2 (lit "x") s2.
Proof. intros H1 H2 ->. apply (setting_canon loop_world [IText (lit "x")]); [exact loop_fits|exact H1|constructor; [constructor|exact H2]]. Qed.
Lemma canon_item i si : item_ok pe0 i -> si = item_text i -> item_writes Loose i si.
Proof. intros H ->. eapply (item_canon pe0); [apply Nat.lt_succ_diag_r|exact H]. Qed.
Lemma loop_x : items_out loop_world [] [] None None false false [IText (lit "x")] (lit "x").
Proof. apply out_one. constructor. apply stripped_none. Qed.
Example C64_corollaries_nonvacuous :
  fails_with pl0 loop_reg broken_data (lit "t") (lit "x{{gone}}{{y}}") (lit "x") (EVariableNotFound (lit "gone") (lit "t"))
  /\ fails_with pl0 loop_reg broken_data (lit "t") (lit "x{{> q}}{{y}}") (lit "x") (EPartialNotFound (lit "q"))
  /\ fails_with pl0 loop_reg broken_data (lit "t") (lit "x{{> p}}{{y}}") (lit "xa") (EPartialCycle (lit "p"))
  /\ fails_with pl0 loop_reg broken_data (lit "t") (lit "x{{#if 1 2}}z{{/if}}{{y}}") (lit "x") (EArityExact (lit "if") 1).
Proof.
  split; [|split; [|split]].
  - refine (C64_strict_variable loop_world [IText (lit "x")] false nt (lit "gone") [show "y"] (lit "x") (lit "{{gone}}") (lit "{{y}}") None (lit "x") (lit "t") _ _ loop_x eq_refl eq_refl eq_refl _);
      [apply loop_setting; [unfold doc_ok, show, var; ok_items|repeat constructor|reflexivity]|apply canon_item; [unfold var; ok_item|reflexivity]|].
    intros v H. cbn [loop_world w_data] in H. unfold broken_data in H. inversion H as [pre k u post Hn E1 E2 E3|]. destruct pre as [|[? ?] [|? ?]]; injection E1; intros; subst; discriminate.
  - refine (C64_unknown_partial loop_world [IText (lit "x")] false nt (lit "q") [] [] [show "y"] (lit "x") (lit "{{> q}}") (lit "{{y}}") None (lit "x") (lit "t") _ _ loop_x ltac:(discriminate) eq_refl).
    + apply loop_setting; [unfold doc_ok, show, var; ok_items|repeat constructor|reflexivity].
    + apply canon_item; [ok_item|reflexivity].
  - refine (C64_self_partial loop_world [IText (lit "x")] false nt (lit "p") [show "y"] (lit "x") (lit "{{> p}}") (lit "{{y}}") None (lit "x") (lit "t") [IText (lit "a")] false nt [] [] [IText (lit "b")] None (lit "a") _ _ loop_x ltac:(discriminate) eq_refl _);
      [apply loop_setting; [unfold doc_ok, show, var; ok_items|repeat constructor|reflexivity]|apply canon_item; [unfold var; ok_item|reflexivity]|]. apply out_one. constructor. apply stripped_none.
  - refine (C64_arity loop_world [IText (lit "x")] [show "y"] (lit "x") (lit "{{#if 1 2}}z{{/if}}") (lit "{{y}}") (IBlock false (Call (HdName (lit "if")) [] [ENum (lit "1"); ENum (lit "2")] []) nt [IText (lit "z")] [] nt) (lit "if") 1 1 _ None (lit "x") (lit "t")
      [JNum (PosInt 1); JNum (PosInt 2)] true (or_intror (ex_intro _ _ (ex_intro _ _ (ex_intro _ _ (ex_intro _ _ (conj eq_refl eq_refl)))))) _ _ loop_x (or_introl eq_refl) _ _ _).
    + apply loop_setting; [unfold doc_ok, show, var; ok_items| |reflexivity]. constructor; [|repeat constructor]. apply reg_block; try reflexivity; try discriminate; repeat constructor; discriminate.
    + apply canon_item; [ok_item|reflexivity].
    + exists if_helper. split; reflexivity.
    + apply as_cons; [apply av_num; reflexivity|apply as_cons; [apply av_num; reflexivity|apply as_nil]].
    + cbn. lia.
Qed.
Example C64_panics_nonvacuous : exists N, forall fuel, N <= fuel -> registry_once fuel pl0 loop_reg (lit "t") (lit "x{{lookup l 0}}{{y}}") broken_data = APanic PanUnwrap.
Proof.
  refine (C64_lookup_panics loop_world [IText (lit "x")] [show "y"] (lit "x") (lit "{{lookup l 0}}") (lit "{{y}}") false nt (EPath (HdName (lit "l")) []) (ENum (lit "0")) None (lit "x") (lit "t") (JArr _) (JNum (PosInt 0)) _ _ loop_x _ _ _).
  - apply loop_setting; [unfold doc_ok, show, var; ok_items|repeat constructor|reflexivity].
  - apply canon_item; [ok_item|reflexivity].
  - exists lookup_helper. split; reflexivity.
  - apply as_cons; [apply av_path; see|apply as_cons; [apply av_num; reflexivity|apply as_nil]].
  - discriminate.
Qed.
