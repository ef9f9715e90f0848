(** * Props_Laws: the json helper from source to output (C36), and laws that relate two renders:
    reformatting (C66), concatenation (C67), unused templates (C68), strict mode (C69). *)
From Coq Require Import Lia String.
From Verif Require Import Str Regex Lexer Json Ast ErrInfo Parser Messages Render Helpers Registry Tests StrFacts RegexFacts Spec_Lexer Spec_Values ValueFacts NumFacts Spec_Helpers
  LookupFacts Spec_Render Spec_Blocks Spec_Calls CycleFacts TermFacts HashFacts BuiltinFacts Props_Values Props_Blocks Props_Calls Spec_Source SynBlock SynLayout Props_Source Spec_Sem SemFacts SemItems Props_Sem
  Spec_Fail FailFacts FailItems Props_Fail Spec_Total TotalFacts Props_Total Spec_Laws SubFacts.
Open Scope nat_scope. Open Scope list_scope.

(** ** C36: json, from source to output *)
Lemma json_gives pl n v ps other : Forall machine_number (json_numbers v) ->
  (forall f, In (Flt f) (json_numbers v) -> float_round_trip (parse_number other) (pl_fstr pl) f) ->
  forall h, builtin pl (lit "json") h ->
  exists text fuel, (forall w scs, gives w scs h n [v] ps (Some (JStr text))) /\ read_json (parse_number other) fuel text = Some (v, []).
Proof.
  intros Hm Hf h Hb. injection Hb as <-. pose proof (numbers_ok other (pl_fstr pl) v Hm Hf) as Ho.
  set (pretty := is_truthy (match assoc (lit "pretty") ps with Some v => v | None => JBool false end)).
  set (text := if pretty then to_pretty (pl_fstr pl) 0 v else to_string (pl_fstr pl) v).
  assert (P : ValueFacts.prints (parse_number other) (pl_fstr pl) v text) by (subst text; destruct pretty; [apply to_pretty_prints, Ho|apply to_string_prints, Ho]).
  destruct (proj1 (prints_reads (parse_number other) (pl_fstr pl)) v text P) as [k Hk].
  exists text, k. split; [|specialize (Hk k [] (le_n k) I); rewrite app_nil_r in Hk; exact Hk].
  intros w scs ctx t E1 E2 E3 E4 E5 _ K en st _. unfold json_helper, with_arity, with_arg, ctx_arity, ctx_get, ctx_param. rewrite E2, E3. reflexivity.
Qed.

(** [{{json x}}] and [{{{json x}}}] (also with [pretty=true]) anywhere in a template: what is written is a text that the
    JSON reader turns back into the value of [x]; escaped like any other value *)
Theorem C36_json_written : forall w other d1 d2 s1 si s2 triple m x hs v pairs ps pb pb' o1 o2,
  let i := ICall triple m false (Call (HdName (lit "json")) [] [x] hs) in
  setting w d1 i d2 s1 s2 -> item_writes Loose i si ->
  items_out w [] [] None pb false (tl_before m) d1 o1 -> items_out w [] [] pb pb' (tl_after m) false d2 o2 ->
  last_after false d1 = false -> next_before false d2 = false ->
  standard w (lit "json") -> arg_value w [] [SHelper (lit "json")] x v -> hash_value w [] [SHelper (lit "json")] hs pairs -> map_of ps pairs ->
  Forall machine_number (json_numbers v) ->
  (forall f, In (Flt f) (json_numbers v) -> float_round_trip (parse_number other) (pl_fstr (w_plat w)) f) ->
  exists text fuel, read_json (parse_number other) fuel text = Some (v, [])
    /\ renders (w_plat w) (w_reg w) (w_data w) (s1 ++ si ++ s2) (o1 ++ (if triple then text else written (rg_escape (w_reg w)) text) ++ o2).
Proof.
  intros w other d1 d2 s1 si s2 triple m x hs v pairs ps pb pb' o1 o2 i Hs Hsi H1 H2 E1 E2 (h & Hb & Hh) Hx Hv Hp Hm Hf.
  destruct (json_gives (w_plat w) (lit "json") v ps other Hm Hf h Hb) as (text & fuel & G & R). exists text, fuel. split; [exact R|].
  apply (among w pb pb pb' d1 i d2); try assumption. rewrite E1, E2. eapply io_value; [|apply shown_string|apply stripped_none].
  eapply cv_helper; [apply called_helper; [split; [reflexivity|split; [symmetry; apply name_text|exact I]]|exact Hh]|cbn; lia|apply as_cons; [exact Hx|apply as_nil]|exact Hv|exact Hp|apply G].
Qed.
(** with the default escape function the double stash shows, in HTML, exactly the JSON text *)
Theorem C36_json_in_html : forall w other d1 d2 s1 si s2 m x hs v pairs ps pb pb' o1 o2,
  let i := ICall false m false (Call (HdName (lit "json")) [] [x] hs) in
  setting w d1 i d2 s1 s2 -> item_writes Loose i si ->
  items_out w [] [] None pb false (tl_before m) d1 o1 -> items_out w [] [] pb pb' (tl_after m) false d2 o2 ->
  last_after false d1 = false -> next_before false d2 = false ->
  standard w (lit "json") -> arg_value w [] [SHelper (lit "json")] x v -> hash_value w [] [SHelper (lit "json")] hs pairs -> map_of ps pairs ->
  Forall machine_number (json_numbers v) ->
  (forall f, In (Flt f) (json_numbers v) -> float_round_trip (parse_number other) (pl_fstr (w_plat w)) f) ->
  rg_escape (w_reg w) = rg_escape (registry_new (w_plat w)) ->
  exists text fuel o, read_json (parse_number other) fuel text = Some (v, []) /\ shows o text /\ safe_html o
    /\ renders (w_plat w) (w_reg w) (w_data w) (s1 ++ si ++ s2) (o1 ++ o ++ o2).
Proof.
  intros w other d1 d2 s1 si s2 m x hs v pairs ps pb pb' o1 o2 i Hs Hsi H1 H2 E1 E2 Hstd Hx Hv Hp Hm Hf He.
  destruct (C36_json_written w other d1 d2 s1 si s2 false m x hs v pairs ps pb pb' o1 o2) as (text & fuel & R & X); try assumption.
  exists text, fuel, (written (rg_escape (w_reg w)) text). split; [exact R|].
  destruct (C18_escape_safe_and_lossless (w_plat w) text) as (A & B & _).
  assert (E : written (rg_escape (w_reg w)) text = rg_escape (registry_new (w_plat w)) text) by (rewrite He; destruct text; reflexivity).
  rewrite E. split; [exact B|]. split; [exact A|]. rewrite <- E. exact X.
Qed.

(** ** C66: reformatting.  Two texts that write the same document, with white space inside the tags as they like, give the same answer *)
Theorem C66_reformatting : forall pl reg data docs d s s' name, let w := mkWorld pl reg data docs in
  fits w -> closed w -> doc_ok (pl_penv pl) d -> Forall (regular w) d -> Forall (tame w) d ->
  doc_writes Loose d s -> doc_writes Loose d s' ->
  forall r, answers pl reg data name s r <-> answers pl reg data name s' r.
Proof.
  intros pl reg data docs d s s' name w Hf Hc Hd Hr Ht Hs Hs'.
  assert (X : forall s s', doc_writes Loose d s -> doc_writes Loose d s' -> forall r, answers pl reg data name s r -> answers pl reg data name s' r).
  { clear s s' Hs Hs'. intros s s' Hs Hs' r Ha.
    destruct (C65_once pl reg data docs d s name Hf Hc Hd Hs Hr Ht) as (A & B & C & r0 & Hr0 & R0).
    destruct (C65_once pl reg data docs d s' name Hf Hc Hd Hs' Hr Ht) as (A' & B' & C' & _).
    pose proof (answers_one _ _ _ _ _ _ _ Ha R0) as <-. destruct r as [o|e|p|].
    - apply A', A, Ha.
    - apply B', B, Ha.
    - apply C', C, Ha.
    - congruence. }
  intros r. split; apply X; assumption.
Qed.
(** in particular a template may be replaced by its canonical form, without any white space that is not needed *)
Theorem C66_canonical : forall pl reg data docs d s name, let w := mkWorld pl reg data docs in
  fits w -> closed w -> doc_ok (pl_penv pl) d -> Forall (regular w) d -> Forall (tame w) d -> doc_writes Loose d s ->
  forall r, answers pl reg data name s r <-> answers pl reg data name (doc_text d) r.
Proof.
  intros pl reg data docs d s name w Hf Hc Hd Hr Ht Hs. apply (C66_reformatting pl reg data docs d); try assumption. apply (doc_canon (pl_penv pl)), Hd.
Qed.

(** ** C67: concatenation *)
Fixpoint blockless (i : item) : bool :=
  match i with IBlock p _ _ body bs _ => negb p && forallb blockless body && forallb (fun b => forallb blockless (snd b)) bs | _ => true end.
Scheme item_out_law := Minimality for item_out Sort Prop
  with items_out_law := Minimality for items_out Sort Prop
  with rounds_out_law := Minimality for rounds_out Sort Prop
  with else_out_law := Minimality for else_out Sort Prop
  with steps_out_law := Minimality for steps_out Sort Prop.
Combined Scheme out_law from item_out_law, items_out_law, rounds_out_law, else_out_law, steps_out_law.
Lemma blockless_branch bs b (post pre : list branch) : forallb (fun b : branch => forallb blockless (snd b)) bs = true -> bs = pre ++ b :: post -> forallb blockless (br_body b) = true.
Proof. intros H ->. rewrite forallb_app in H. cbn in H. apply andb_prop in H. destruct H as [_ H]. apply andb_prop in H. apply H. Qed.
Lemma else_blockless w scs act bs b post : forallb (fun b : branch => forallb blockless (snd b)) bs = true -> else_branch w scs act bs (Some (b, post)) -> forallb blockless (br_body b) = true.
Proof. intros H X. inversion X; subst; eapply blockless_branch; [exact H|reflexivity|exact H|reflexivity]. Qed.
(** without partial blocks [@partial-block] stays unset *)
Lemma stays_unset w : (forall n d, assoc n (w_docs w) = Some d -> forallb blockless d = true) ->
  (forall scs act pb pb' s e i o, item_out w scs act pb pb' s e i o -> pb = None -> blockless i = true -> pb' = None)
  /\ (forall scs act pb pb' s e l o, items_out w scs act pb pb' s e l o -> pb = None -> forallb blockless l = true -> pb' = None)
  /\ (forall its scs act pb pb' s e l o, rounds_out w its scs act pb pb' s e l o -> pb = None -> forallb blockless l = true -> pb' = None)
  /\ (forall scs act pb pb' m' r o, else_out w scs act pb pb' m' r o -> pb = None -> (forall b post, r = Some (b, post) -> forallb blockless (br_body b) = true) -> pb' = None)
  /\ (forall scs act pb pb' m body bs m' cur l o, steps_out w scs act pb pb' m body bs m' cur l o -> pb = None -> forallb blockless body = true -> forallb (fun b : branch => forallb blockless (snd b)) bs = true -> pb' = None).
Proof.
  intros Hd. apply out_law; intros; subst; try reflexivity; try congruence;
    repeat match goal with H : blockless (IBlock _ _ _ _ _ _) = true |- _ => cbn [blockless negb andb] in H; apply andb_prop in H; destruct H end;
    try discriminate; auto.
  - match goal with H : partial_source _ None _ _ |- _ => destruct H as [(_ & X)|(_ & X)]; [discriminate X|eauto] end.
  - match goal with H : partial_source _ None _ _ |- _ => destruct H as [(_ & X)|(_ & X)]; [discriminate X|eauto] end.
  - match goal with H : _ -> _ -> pb' = None |- _ => apply H; [reflexivity|] end. intros b post ->. eapply else_blockless; eassumption.
  - match goal with H : _ -> _ -> pb' = None |- _ => apply H; [reflexivity|] end. intros b post ->. eapply else_blockless; eassumption.
  - match goal with H : forallb blockless (_ :: _) = true |- _ => cbn in H; apply andb_prop in H; destruct H end. auto.
  - eauto.
  - match goal with H : pb1 = None -> _ |- _ => apply H; [|assumption..] end. match goal with H : _ -> (forall b post, _) -> pb1 = None |- _ => apply H; [reflexivity|] end. intros b post ->. eapply else_blockless; eassumption.
Qed.
(** the answer to a concatenation *)
Definition then_answer (r1 r2 : ares str) : ares str :=
  match r1 with AOk o1 => match r2 with AOk o2 => AOk (o1 ++ o2) | x => x end | x => x end.
Lemma writes_app d1 d2 s1 s2 : doc_writes Loose d1 s1 -> doc_writes Loose d2 s2 -> doc_writes Loose (d1 ++ d2) (s1 ++ s2).
Proof. intros (l1 & H1 & ->) (l2 & H2 & ->). exists (l1 ++ l2). split; [apply Forall2_app; assumption|symmetry; apply concat_app]. Qed.
Lemma items_err_first w nm scs act l1 : forall pb s e l2 out err, items_err w nm scs act pb s (next_before e l2) l1 out err -> items_err w nm scs act pb s e (l1 ++ l2) out err.
Proof.
  induction l1 as [|i l1 IH]; intros pb s e l2 out err H; inversion H; subst; cbn [app].
  - apply err_here. destruct l1; assumption.
  - eapply err_later; [destruct l1; eassumption|]. apply IH. assumption.
Qed.
Lemma items_err_second w nm scs act pb1 l1 : forall pb s e l2 o1 out err, items_out w scs act pb pb1 s (next_before e l2) l1 o1 ->
  items_err w nm scs act pb1 (last_after s l1) e l2 out err -> items_err w nm scs act pb s e (l1 ++ l2) (o1 ++ out) err.
Proof.
  induction l1 as [|j l1 IH]; intros pb s e l2 o1 out err H1 H2; inversion H1 as [|? ? ? pb2 ? ? ? ? ? oi oj Hi Hj]; subst; [exact H2|]. cbn [app]. rewrite <- app_assoc. apply (err_later _ _ _ _ _ pb2).
  - destruct l1; assumption.
  - apply IH; assumption.
Qed.
Theorem C67_concatenation : forall pl reg data docs d1 d2 s1 s2 name r1 r2, let w := mkWorld pl reg data docs in
  fits w -> closed w -> doc_ok (pl_penv pl) d1 -> doc_ok (pl_penv pl) d2 -> doc_ok (pl_penv pl) (d1 ++ d2) ->
  Forall (regular w) (d1 ++ d2) -> Forall (tame w) (d1 ++ d2) -> doc_writes Loose d1 s1 -> doc_writes Loose d2 s2 ->
  (** no [~] where they meet, no partial block in the first part *)
  last_after false d1 = false -> next_before false d2 = false -> forallb blockless d1 = true -> (forall n d, assoc n docs = Some d -> forallb blockless d = true) ->
  answers pl reg data name s1 r1 -> answers pl reg data name s2 r2 -> answers pl reg data name (s1 ++ s2) (then_answer r1 r2).
Proof.
  intros pl reg data docs d1 d2 s1 s2 name r1 r2 w Hf Hc K1 K2 K R T W1 W2 E1 E2 B1 Bd A1 A2.
  pose proof (writes_app _ _ _ _ W1 W2) as W. apply Forall_app in R as R'. destruct R' as [R1 R2]. apply Forall_app in T as T'. destruct T' as [T1 T2].
  destruct (C65_once pl reg data docs d1 s1 name Hf Hc K1 W1 R1 T1) as (X1 & Y1 & Z1 & q1 & Q1 & Q1').
  destruct (C65_once pl reg data docs d2 s2 name Hf Hc K2 W2 R2 T2) as (X2 & Y2 & Z2 & q2 & Q2 & Q2').
  destruct (C65_once pl reg data docs (d1 ++ d2) (s1 ++ s2) name Hf Hc K W R T) as (X & Y & Z & _).
  pose proof (answers_one _ _ _ _ _ _ _ A1 Q1') as <-. pose proof (answers_one _ _ _ _ _ _ _ A2 Q2') as <-.
  assert (U : forall pb o, items_out w [] [] None pb false false d1 o -> items_out w [] [] None None false (next_before false d2) d1 o).
  { intros pb o H. rewrite E2. pose proof (proj1 (proj2 (stays_unset w Bd)) _ _ _ _ _ _ _ _ H eq_refl B1) as ->. exact H. }
  destruct r1 as [o1|e1|p1|]; cbn [then_answer]; [|apply Y1 in A1; destruct A1 as (o & err & -> & H)|apply Z1 in A1; destruct A1 as (-> & o & H)|congruence].
  - apply X1 in A1. destruct A1 as (pb & H1). apply U in H1. destruct r2 as [o2|e2|p2|].
    + apply X2 in A2. destruct A2 as (pb2 & H2). apply X. exists pb2. eapply items_out_app; [exact H1|rewrite E1; exact H2].
    + apply Y2 in A2. destruct A2 as (o & err & -> & H). apply Y. exists (o1 ++ o), err. split; [reflexivity|]. eapply items_err_second; [exact H1|rewrite E1; exact H].
    + apply Z2 in A2. destruct A2 as (-> & o & H). apply Z. split; [reflexivity|]. exists (o1 ++ o). eapply items_err_second; [exact H1|rewrite E1; exact H].
    + congruence.
  - apply Y. exists o, err. split; [reflexivity|]. apply items_err_first. rewrite E2. exact H.
  - apply Z. split; [reflexivity|]. exists o. apply items_err_first. rewrite E2. exact H.
Qed.

(** ** C68: a template that is not used *)
Lemma differ_templates pl r ts n name data wr : assoc n (rg_templates r) = None -> (forall m, m <> n -> assoc m ts = assoc m (rg_templates r)) ->
  forwarding_registry (not_found n) (fun m => m <> n) r ->
  differ (not_found n) (fun _ => False) (fun m => m <> n) (mkEnv pl r name data wr) (mkEnv pl (set_templates ts r) name data wr).
Proof.
  intros Hn Ht Hf. constructor; try reflexivity; [|left; split; reflexivity|exact Hf]. intros m. cbn [en_reg set_templates rg_templates]. split; [apply Ht|].
  destruct (streq m n) eqn:E; [apply streq_eq in E; subst m; right; split; [exact Hn|reflexivity]|]. left. apply Ht. intros ->. rewrite streq_refl in E. discriminate E.
Qed.
(** [r'] is [r] with something registered under the name [n], which was free; a render that does not fail for want of [n]
    writes the same pieces in the same order and ends in the same way *)
Theorem C68_unused_template : forall fuel pl r ts n name data wr t, let r' := set_templates ts r in
  registry_get n r = None -> (forall m, m <> n -> registry_get m r' = registry_get m r) ->
  forwarding_registry (not_found n) (fun m => m <> n) r ->
  fst (template_render fuel pl r name t data wr []) <> AErr (XRender (EPartialNotFound n)) ->
  template_render fuel pl r' name t data wr [] = template_render fuel pl r name t data wr [].
Proof.
  intros fuel pl r ts n name data wr t r' Hn Ht Hf H.
  destruct (sub_template_render (not_found n) (fun _ => False) _ fuel pl r r' name data wr t (differ_templates pl r ts n name data wr Hn Ht Hf)) as [(e & -> & X)|[(p & [] & _)|X]]; [congruence|exact X].
Qed.
(** [insert], then [once] or [render] *)
Lemma get_set n m (t : template) l : m <> n -> assoc m (assoc_set n t l) = assoc m l.
Proof.
  intros H. induction l as [|[k v] l IH]; cbn.
  - destruct (streq m n) eqn:E; [apply streq_eq in E; congruence|reflexivity].
  - destruct (streq n k) eqn:E; cbn; [apply streq_eq in E; subst k|rewrite IH; reflexivity]. destruct (streq m n) eqn:E; [apply streq_eq in E; congruence|reflexivity].
Qed.
Theorem C68_insert : forall fuel pl r r' n s name src data,
  registry_get n r = None -> registry_insert pl n s r = (AOk tt, r') -> forwarding_registry (not_found n) (fun m => m <> n) r ->
  (registry_once fuel pl r name src data <> AErr (XRender (EPartialNotFound n)) ->
     registry_once fuel pl r' name src data = registry_once fuel pl r name src data)
  /\ (name <> n -> registry_render fuel pl r name data <> AErr (XRender (EPartialNotFound n)) ->
     registry_render fuel pl r' name data = registry_render fuel pl r name data).
Proof.
  intros fuel pl r r' n s name src data Hn Hi Hf. unfold registry_insert in Hi. destruct (template_compile pl (mkOpts n 0 0) s) as [t| | |]; try discriminate Hi. injection Hi as <-.
  assert (Ht : forall m, m <> n -> registry_get m (set_templates (assoc_set n t (rg_templates r)) r) = registry_get m r) by (intros m Hm; apply get_set, Hm).
  split.
  - unfold registry_once. destruct (template_compile pl (mkOpts name 0 0) src) as [te| | |]; try reflexivity. intros H.
    rewrite (C68_unused_template fuel pl r _ n name data string_writer (te_tpl te) Hn Ht Hf); [reflexivity|]. intros X. apply H. unfold to_str. rewrite X. reflexivity.
  - intros Hne. unfold registry_render, registry_render_to_write. cbn [set_templates rg_templates]. rewrite (get_set _ _ _ _ Hne). destruct (assoc name (rg_templates r)) as [te|]; [|reflexivity]. intros H.
    rewrite (C68_unused_template fuel pl r _ n name data string_writer (te_tpl te) Hn Ht Hf); [reflexivity|]. intros X. apply H. unfold to_str. rewrite X. reflexivity.
Qed.
(** [remove]: if what is left can be rendered without it, the template was not used *)
Lemma get_del n m (l : list (str * template)) : m <> n -> assoc m (assoc_del n l) = assoc m l.
Proof.
  intros H. induction l as [|[k v] l IH]; cbn; [reflexivity|]. destruct (streq n k) eqn:E; cbn; [apply streq_eq in E; subst k|rewrite IH; reflexivity].
  destruct (streq m n) eqn:E; [apply streq_eq in E; congruence|exact IH].
Qed.
Lemma get_deleted n (l : list (str * template)) : assoc n (assoc_del n l) = None.
Proof. induction l as [|[k v] l IH]; cbn; [reflexivity|]. destruct (streq n k) eqn:E; [exact IH|]. cbn. rewrite E. exact IH. Qed.
Theorem C68_remove : forall fuel pl r n name src data, let r' := snd (registry_remove n r) in
  forwarding_registry (not_found n) (fun m => m <> n) r -> registry_once fuel pl r' name src data <> AErr (XRender (EPartialNotFound n)) ->
  registry_once fuel pl r name src data = registry_once fuel pl r' name src data.
Proof.
  intros fuel pl r n name src data r' Hf H. assert (Er : r = set_templates (rg_templates r) r') by (destruct r; reflexivity).
  unfold registry_once in *. destruct (template_compile pl (mkOpts name 0 0) src) as [te| | |]; try reflexivity. rewrite Er.
  rewrite (C68_unused_template fuel pl r' _ n name data string_writer (te_tpl te)); [reflexivity|apply get_deleted| |exact Hf|].
  - intros m Hm. symmetry. apply get_del, Hm.
  - intros X. apply H. unfold to_str. rewrite X. reflexivity.
Qed.
(** ** C69: strict mode only refuses *)
Lemma differ_strict pl r b hm name data wr : rg_missing r = None -> rg_strict r = true -> forwarding_registry missing_error (fun _ => True) r ->
  differ missing_error (fun p => p = PanSlice) (fun _ => True) (mkEnv pl r name data wr) (mkEnv pl (set_strict b (set_missing hm r)) name data wr).
Proof.
  intros Hm Hs Hf. constructor; try reflexivity; [intros n; split; [|left]; reflexivity| |exact Hf]. right. split; [exact Hm|]. split; [exact Hs|]. split; [auto|reflexivity].
Qed.
(** a render in strict mode without a handler for missing variables that does not fail for a missing variable or block
    (nor panics) gives the same in any other setting *)
Theorem C69_strict_refuses : forall fuel pl r name data wr t b hm,
  rg_missing r = None -> rg_strict r = true -> forwarding_registry missing_error (fun _ => True) r ->
  let x := template_render fuel pl r name t data wr [] in
  (forall e, missing_error e -> fst x <> AErr (XRender e)) -> (forall p, fst x <> APanic p) ->
  template_render fuel pl (set_strict b (set_missing hm r)) name t data wr [] = x.
Proof.
  intros fuel pl r name data wr t b hm Hm Hs Hf x H1 H2.
  destruct (sub_template_render _ _ _ fuel pl r _ name data wr t (differ_strict pl r b hm name data wr Hm Hs Hf)) as [(e & He & X)|[(p & _ & X)|X]]; [destruct (H1 e He X)|destruct (H2 p X)|exact X].
Qed.
Theorem C69_once : forall fuel pl r name src data out b hm,
  rg_missing r = None -> forwarding_registry missing_error (fun _ => True) r ->
  registry_once fuel pl (set_strict true r) name src data = AOk out ->
  registry_once fuel pl (set_strict b (set_missing hm r)) name src data = AOk out.
Proof.
  intros fuel pl r name src data out b hm Hm Hf. unfold registry_once. destruct (template_compile pl (mkOpts name 0 0) src) as [te| | |]; try discriminate. intros H.
  change (set_strict b (set_missing hm r)) with (set_strict b (set_missing hm (set_strict true r))).
  rewrite (C69_strict_refuses fuel pl (set_strict true r) name data string_writer (te_tpl te) b hm Hm eq_refl Hf); [exact H| |];
    [intros e He X|intros p X]; unfold to_str in H; rewrite X in H; discriminate H.
Qed.
Theorem C69_render : forall fuel pl r name data out b hm,
  rg_missing r = None -> forwarding_registry missing_error (fun _ => True) r ->
  registry_render fuel pl (set_strict true r) name data = AOk out ->
  registry_render fuel pl (set_strict b (set_missing hm r)) name data = AOk out.
Proof.
  intros fuel pl r name data out b hm Hm Hf. unfold registry_render, registry_render_to_write. cbn [set_strict set_missing rg_templates].
  destruct (assoc name (rg_templates r)) as [te|]; [|discriminate]. intros H.
  change (set_strict b (set_missing hm r)) with (set_strict b (set_missing hm (set_strict true r))).
  rewrite (C69_strict_refuses fuel pl (set_strict true r) name data string_writer (te_tpl te) b hm Hm eq_refl Hf); [exact H| |];
    [intros e He X|intros p X]; unfold to_str in H; rewrite X in H; discriminate H.
Qed.
(** the standard helpers pass every error on and ask for no template *)
Lemma fw_obj bad asks t k : forwards bad asks k -> forall l i, forwards bad asks (each_obj t i l k).
Proof. intros Hk. induction l as [|[key v] l IH]; intros i; [exact Hk|]. cbn. split; [intros []; cbn; auto|reflexivity]. Qed.
Lemma fw_arr bad asks t n k : forwards bad asks k -> forall l i, forwards bad asks (each_arr t n i l k).
Proof. intros Hk. induction l as [|v l IH]; intros i; [exact Hk|]. cbn. split; [intros []; cbn; auto|reflexivity]. Qed.
Lemma fw_log bad asks lv k : forwards bad asks k -> forall l, forwards bad asks (log_lines lv l k).
Proof. intros Hk. induction l as [|x l IH]; [exact Hk|exact IH]. Qed.
Theorem C68_builtins_forward : forall bad asks pl ts e b, forwarding_registry bad asks (set_templates ts (set_escape e (set_strict b (registry_new pl)))).
Proof.
  intros bad asks pl ts e b. split; [|repeat split; discriminate]. intros n h H. cbn [rg_helpers set_templates set_escape set_strict] in H.
  each_builtin H; open_helper; repeat first [apply fw_obj|apply fw_arr|apply fw_log|progress (cbn; auto)|progress intros|match goal with |- _ /\ _ => split | |- context [match ?x with _ => _ end] => is_var x; destruct x end].
Qed.

(** ** The hypotheses are met *)
Definition json_item : item := ICall false nt false (Call (HdName (lit "json")) [] [EPath (HdName (lit "x")) []] [(lit "pretty", EBool false)]).
Definition json_doc : list item := [IText (lit "v="); json_item; IText (lit ";")].
Definition json_value : json := JObj [(lit "a", JArr [JNum (PosInt 1); JStr (lit "<")])].
Definition json_world : world := mkWorld pl0 reg0 (JObj [(lit "x", json_value)]) [].
Example C36_written_nonvacuous : exists pairs ps,
  setting json_world [IText (lit "v=")] json_item [IText (lit ";")] (lit "v=") (lit ";") /\ item_writes Loose json_item (lit "{{json x pretty=false}}")
  /\ standard json_world (lit "json") /\ arg_value json_world [] [SHelper (lit "json")] (EPath (HdName (lit "x")) []) json_value
  /\ hash_value json_world [] [SHelper (lit "json")] [(lit "pretty", EBool false)] pairs /\ map_of ps pairs
  /\ Forall machine_number (json_numbers json_value) /\ (forall f, ~ In (Flt f) (json_numbers json_value))
  /\ rg_escape (w_reg json_world) = rg_escape (registry_new (w_plat json_world))
  /\ once reg0 (lit "v={{json x pretty=false}};") (w_data json_world) = AOk (lit "v={&quot;a&quot;:[1,&quot;&lt;&quot;]};").
Proof.
  exists [(lit "pretty", JBool false)], [(lit "pretty", JBool false)].
  assert (Hd : doc_ok pe0 json_doc) by (unfold doc_ok, json_doc, json_item; ok_items).
  assert (Hs : setting json_world [IText (lit "v=")] json_item [IText (lit ";")] (doc_text [IText (lit "v=")]) (doc_text [IText (lit ";")])).
  { apply setting_canon; [apply (alone_fits pl0 reg0); intros src c; apply Permutation_refl|exact Hd|repeat constructor]. }
  split; [exact Hs|]. split; [apply canon_item; [unfold json_item; ok_item|reflexivity]|].
  split; [exists (json_helper (pl_fstr pl0)); split; reflexivity|]. split; [apply av_path; see|]. split; [apply hv_cons; [apply av_bool|apply hv_nil]|].
  split; [split; [repeat constructor|apply Permutation_refl]|]. split; [repeat constructor|]. split; [intros f H; cbn in H; destruct H as [H|[]]; discriminate H|]. split; [reflexivity|vm_compute; reflexivity].
Qed.
Example C66_nonvacuous : forall data name, let w := mkWorld pl0 broken_reg data [(lit "p", broken_p)] in let d := [show "x"] in
  fits w /\ closed w /\ doc_ok pe0 d /\ Forall (regular w) d /\ Forall (tame w) d /\ doc_writes Loose d (lit "{{x}}") /\ doc_writes Loose d (lit "{{ " ++ [10%N] ++ lit " x }}")
  /\ exists r, r <> AFuel /\ answers pl0 broken_reg data name (lit "{{ " ++ [10%N] ++ lit " x }}") r.
Proof.
  intros data name w d. destruct (C65_nonvacuous data name) as (Hf & Hw & Hc & _). fold w in Hf, Hw, Hc.
  assert (Hd : doc_ok pe0 d) by (unfold doc_ok, d, show, var; ok_items).
  assert (Hr : Forall (regular w) d) by (repeat constructor).
  assert (Ht : Forall (tame w) d) by (constructor; [apply C65_standard_tame; [exact Hw|reflexivity]|constructor]).
  assert (Hs : forall g g', gap_str g -> gap_str g' -> doc_writes Loose d (lit "{{" ++ g ++ lit "x" ++ g' ++ lit "}}")).
  { intros g g' Hg Hg'. apply writes_one. constructor; [now apply (stash_writes "{{" "}}")|intros X; discriminate X]. }
  assert (G : gap_str (lit " " ++ [10%N] ++ lit " ") /\ gap_str (lit " ")) by (split; intros c H; cbn in H; intuition (subst; cbn; tauto)). destruct G as [G1 G2].
  repeat (split; [assumption|]). split; [exact (Hs [] [] no_gap no_gap)|]. split; [exact (Hs _ _ G1 G2)|].
  destruct (C65_once pl0 broken_reg data _ d _ name Hf Hc Hd (Hs _ _ G1 G2) Hr Ht) as (_ & _ & _ & H). exact H.
Qed.
Example C67_nonvacuous : forall data, let w := mkWorld pl0 broken_reg data [(lit "p", broken_p)] in let d1 := firstn 2 broken in let d2 := skipn 2 broken in
  fits w /\ closed w /\ doc_ok pe0 d1 /\ doc_ok pe0 d2 /\ doc_ok pe0 (d1 ++ d2) /\ Forall (regular w) (d1 ++ d2) /\ Forall (tame w) (d1 ++ d2)
  /\ last_after false d1 = false /\ next_before false d2 = false /\ forallb blockless d1 = true /\ forallb blockless broken_p = true.
Proof.
  intros data w d1 d2. destruct (C65_nonvacuous data []) as (Hf & Hw & Hc & Ht & Hr & _).
  split; [exact Hf|]. split; [exact Hc|]. split; [unfold d1, broken, doc_ok, show, var; cbn [firstn]; ok_items|]. split; [unfold d2, broken, doc_ok, show, var; cbn [skipn]; ok_items|].
  split; [exact broken_ok|]. split; [exact Hr|]. split; [exact Ht|]. repeat split.
Qed.
Example C68_nonvacuous : let r' := ins (lit "extra") (lit "{{> p}}") greet_reg in
  registry_get (lit "extra") greet_reg = None /\ fst (registry_insert pl0 (lit "extra") (lit "{{> p}}") greet_reg) = AOk tt
  /\ once greet_reg (doc_text greet) greet_data = AOk greet_out /\ once r' (doc_text greet) greet_data = AOk greet_out
  /\ once greet_reg (lit "{{> extra}}") greet_data = AErr (XRender (EPartialNotFound (lit "extra"))) /\ once r' (lit "{{> extra}}") greet_data = AOk (lit "(Object)").
Proof. cbv zeta. do 5 (split; [vm_compute; reflexivity|]). vm_compute; reflexivity. Qed.
Example C69_nonvacuous : let strict := set_strict true reg0 in
  rg_missing strict = None /\ forwarding_registry missing_error (fun _ => True) strict
  /\ once strict (lit "Hi {{name}}") greet_data = once reg0 (lit "Hi {{name}}") greet_data /\ (exists out, once strict (lit "Hi {{name}}") greet_data = AOk out)
  /\ (exists e, once strict (lit "{{nowhere}}") greet_data = AErr (XRender e) /\ missing_error e)
  /\ once reg0 (lit "{{nowhere}}") greet_data = AOk [].
Proof.
  cbv zeta. split; [reflexivity|]. split; [exact (C68_builtins_forward missing_error (fun _ => True) pl0 (rg_templates reg0) (rg_escape reg0) true)|].
  split; [vm_compute; reflexivity|]. split; [eexists; vm_compute; reflexivity|]. split; [|vm_compute; reflexivity].
  eexists. split; [vm_compute; reflexivity|]. left. eexists; eexists; reflexivity.
Qed.
