(** * Props_Inject: markup in the output comes from the templates only (C78). *)
From Coq Require Import Lia String.
From Verif Require Import Str Lexer Json Ast Parser Render Helpers Registry Tests StrFacts Spec_Lexer Spec_Values ValueFacts Spec_Helpers Spec_Blocks Spec_Calls Props_Values CycleFacts Spec_Source SynBlock SynLayout Props_Source Spec_Sem SemFacts SemItems Props_Sem Spec_Fail FailItems Props_Fail Spec_Total TotalFacts Props_Total Spec_Inject InjectFacts.
Open Scope nat_scope. Open Scope list_scope.

(** ** Whatever the data: what a render writes (also one that fails) is put together from the text of the templates and from results of the escape function *)
Theorem C78_woven : forall pl reg data docs d s name wr o te, let w := mkWorld pl reg data docs in
  fits w -> closed w -> careful_world w -> doc_ok (pl_penv pl) d -> doc_writes Loose d s -> Forall (regular w) d -> Forall (tame w) d ->
  forallb escaping d = true -> (forall n x, assoc n docs = Some x -> forallb escaping x = true) ->
  (forall h s, exists n, wr h s = WOk n) -> template_compile pl o s = AOk te ->
  exists N, forall fuel, N <= fuel -> forall r parts, template_render fuel pl reg name (te_tpl te) data wr [] = (r, parts) ->
    r <> AFuel /\ ((forall p, r <> APanic p) -> woven (template_text w d) (escaped_by (rg_escape reg)) (concat parts)).
Proof.
  intros pl reg data docs d s name wr o te w Hf Hc Hca Hd Hs Hr Ht He Hde Hw Hte.
  assert (G : goods (template_text w d) d).
  { intros i Hi. rewrite forallb_forall in He. split; [now apply He|]. intros x Hx. exists i. auto. }
  assert (GD : forall n x, assoc n (w_docs w) = Some x -> goods (template_text w d) x).
  { intros n l Hl i Hi. specialize (Hde n l Hl). rewrite forallb_forall in Hde. split; [now apply Hde|]. intros x Hx. exists i. eauto 6. }
  destruct (C65_total w name d Hf Hc Hd Ht) as [(pb & out & H)|(out & err & H)].
  - destruct (C55_semantics pl reg data docs d s pb out name wr o te Hf Hd Hs Hr H Hw Hte) as (N & HN). exists N. intros fuel Hfu r parts E. destruct (HN fuel Hfu) as (parts' & E1 & E2). rewrite E1 in E. injection E as <- <-.
    split; [discriminate|]. intros _. rewrite E2. destruct (weave w Hca (template_text w d) GD) as (_ & W & _). exact (proj1 (W _ _ _ _ _ _ _ _ H G I)).
  - destruct err as [err|].
    + destruct (C64_semantics pl reg data docs d s out err name wr o te Hf Hd Hs Hr H Hw Hte) as (N & HN). exists N. intros fuel Hfu r parts E. destruct (HN fuel Hfu) as (parts' & E1 & E2). rewrite E1 in E. injection E as <- <-.
      split; [discriminate|]. intros _. rewrite E2. destruct (weave_err w Hca (template_text w d) GD name) as (_ & W & _). exact (W _ _ _ _ _ _ _ _ H G I).
    + destruct (C64_panics pl reg data docs d s out name wr o te Hf Hd Hs Hr H Hw Hte) as (N & HN). exists N. intros fuel Hfu r parts E. specialize (HN fuel Hfu). rewrite E in HN. cbn in HN. subst r.
      split; [discriminate|]. intros X. destruct (X PanUnwrap eq_refl).
Qed.
Print Assumptions C78_woven.

(** ** With the standard escape function the parts that do not come from a template are plain text for a browser *)
Lemma woven_weaken (own other other' : str -> Prop) out : (forall y, other y -> other' y) -> woven own other out -> woven own other' out.
Proof. intros H. induction 1; [constructor|eapply woven_own; eauto|eapply woven_other; eauto]. Qed.
Lemma safe_app x y : safe_html x -> safe_html y -> safe_html (x ++ y).
Proof. induction 1; intros Hy; [exact Hy|cbn; constructor; auto|rewrite <- app_assoc; econstructor; eauto]. Qed.
Theorem C78_html : forall pl reg data docs d s name wr o te, let w := mkWorld pl reg data docs in
  fits w -> closed w -> careful_world w -> doc_ok (pl_penv pl) d -> doc_writes Loose d s -> Forall (regular w) d -> Forall (tame w) d ->
  forallb escaping d = true -> (forall n x, assoc n docs = Some x -> forallb escaping x = true) ->
  (forall h s, exists n, wr h s = WOk n) -> template_compile pl o s = AOk te ->
  rg_escape reg = rg_escape (registry_new pl) ->
  exists N, forall fuel, N <= fuel -> forall r parts, template_render fuel pl reg name (te_tpl te) data wr [] = (r, parts) ->
    (forall p, r <> APanic p) -> woven (template_text w d) safe_html (concat parts).
Proof.
  intros pl reg data docs d s name wr o te w Hf Hc Hca Hd Hs Hr Ht He Hde Hw Hte Hesc.
  destruct (C78_woven pl reg data docs d s name wr o te Hf Hc Hca Hd Hs Hr Ht He Hde Hw Hte) as (N & HN). exists N. intros fuel Hfu r parts E X. destruct (HN fuel Hfu r parts E) as (_ & W).
  refine (woven_weaken _ _ _ _ _ (W X)). intros y (x & ->). rewrite Hesc. exact (proj1 (C18_escape_safe_and_lossless pl x)).
Qed.
Print Assumptions C78_html.
(** so templates without markup give output without markup, whatever the data *)
Lemma safe_blank_front a x : blank a -> safe_html (a ++ x) -> safe_html x.
Proof.
  induction a as [|c a IH]; intros Ha H; [exact H|]. apply IH; [intros z Hz; apply Ha; now right|]. cbn [app] in H. assert (Hc : In c white_space) by (apply Ha; now left).
  inversion H as [|c0 s0 H1 H2 E1|e c0 s0 H1 H2 E1]; subst; [assumption|].
  exfalso. cbn in H1. repeat destruct H1 as [H1|H1]; try contradiction; injection H1 as <- <-; cbn in E1; injection E1 as <- _; cbn in Hc; repeat destruct Hc as [Hc|Hc]; try discriminate Hc; contradiction.
Qed.
Lemma safe_blank_back b : blank b -> forall x, safe_html (x ++ b) -> safe_html x.
Proof.
  intros Hb x H. remember (x ++ b) as z eqn:E. revert x E. induction H as [|c s Hc Hs IH|e c s He Hs IH]; intros x E.
  - destruct x; [constructor|discriminate E].
  - destruct x as [|c' x]; [constructor|]. injection E as <- ->. constructor; [exact Hc|now apply IH].
  - destruct x as [|c' x].
    + constructor.
    + assert (X : exists r, c' :: x = e ++ r /\ s = r ++ b).
      { apply app_eq_app in E. destruct E as (l & [(E1 & E2)|(E1 & E2)]).
        - (* the entity reaches into the white space *)
          destruct l as [|z l]; [exists []; rewrite app_nil_r in *; cbn in E2; auto|].
          exfalso. assert (B : forall q, In q (z :: l) -> In q white_space) by (intros q Hq; apply Hb; rewrite E2; apply in_or_app; now left).
          assert (L : In (last e 0%N) white_space). { rewrite E1. assert (Y : last ((c' :: x) ++ z :: l) 0%N = last (z :: l) 0%N). { clear. revert c'. induction x as [|d x IH]; intros c'; [reflexivity|]. exact (IH d). }
            rewrite Y. apply B. clear. revert z. induction l as [|d l IH]; intros z; [left; reflexivity|]. right. exact (IH d). }
          cbn in He. repeat destruct He as [He|He]; try contradiction; injection He as <- <-; cbn in L; repeat destruct L as [L|L]; try discriminate L; contradiction.
        - exists l. auto. }
      destruct X as (r & -> & ->). econstructor; [exact He|]. apply IH. reflexivity.
Qed.
Theorem C78_plain : forall pl reg data docs d s name wr o te, let w := mkWorld pl reg data docs in
  fits w -> closed w -> careful_world w -> doc_ok (pl_penv pl) d -> doc_writes Loose d s -> Forall (regular w) d -> Forall (tame w) d ->
  forallb escaping d = true -> (forall n x, assoc n docs = Some x -> forallb escaping x = true) ->
  (forall h s, exists n, wr h s = WOk n) -> template_compile pl o s = AOk te ->
  rg_escape reg = rg_escape (registry_new pl) -> (forall x, template_text w d x -> safe_html x) ->
  exists N, forall fuel, N <= fuel -> forall r parts, template_render fuel pl reg name (te_tpl te) data wr [] = (r, parts) ->
    (forall p, r <> APanic p) -> safe_html (concat parts).
Proof.
  intros pl reg data docs d s name wr o te w Hf Hc Hca Hd Hs Hr Ht He Hde Hw Hte Hesc Hx.
  destruct (C78_html pl reg data docs d s name wr o te Hf Hc Hca Hd Hs Hr Ht He Hde Hw Hte Hesc) as (N & HN). exists N. intros fuel Hfu r parts E X. specialize (HN fuel Hfu r parts E X).
  revert HN. fold w. generalize (concat parts). intros out H. induction H as [|a y b out Ho Ha Hb Hout IH|y out Ho Hout IH]; [constructor| |now apply safe_app].
  apply safe_app; [|exact IH]. apply (safe_blank_back b Hb). apply (safe_blank_front a); [exact Ha|]. now apply Hx.
Qed.
Print Assumptions C78_plain.

(** ** The standard helpers never write: with them alone, only [{{{x}}}] writes unescaped values *)
Lemma standard_careful w : only_standard w -> careful_world w.
Proof.
  intros (H1 & H2 & H3 & H4). constructor; try congruence. intros n f H. pose proof (H1 n f H) as Hb.
  assert (P : forall scs m vs ps text prop blk, (blk = true -> ~ In n block_helpers) -> exists p, acts w scs f m vs ps text prop blk p /\ ((exists ws v, p = writes ws v /\ Forall (fun x => snd x = true) ws) \/ exists s, p = halt s)).
  { intros scs m vs ps text prop blk Hn.
    assert (X : stable blk f /\ forall ctx, gives_or_halts (f ctx None)).
    { destruct (in_block_helpers n) as [Hi|Hi]; [destruct blk; [destruct (Hn eq_refl Hi)|exact (block_helper_value _ n f Hb Hi)]|]. destruct (value_helper _ n f Hb Hi) as (V1 & V2). split; [apply V1|exact V2]. }
    destruct X as (X1 & X2). destruct (X2 (bare m vs ps text prop)) as (q & Hq & Y). exists q. split; [exact (acts_same _ _ _ _ _ _ _ _ _ _ _ (stable_acts w scs blk f m vs ps text prop X1) Hq)|].
    destruct Y as [(v & ->)|Y]; [left; exists [], v; auto|right; exact Y]. }
  split; [intros scs m vs ps text prop; apply P; discriminate|]. destruct (in_block_helpers n) as [Hi|Hi]; [right; auto|left; intros scs m vs ps text prop; apply P; auto].
Qed.
Theorem C78_standard : forall pl reg data docs d s name out, let w := mkWorld pl reg data docs in
  fits w -> only_standard w -> (forall n, assoc n (rg_templates reg) <> None -> assoc n docs <> None) -> (forall n x, assoc n docs = Some x -> forallb tidy x = true /\ forallb escaping x = true) ->
  doc_ok (pl_penv pl) d -> doc_writes Loose d s -> Forall (regular w) d -> forallb tidy d = true -> forallb escaping d = true ->
  rg_escape reg = rg_escape (registry_new pl) ->
  answers pl reg data name s (AOk out) -> woven (template_text w d) safe_html out.
Proof.
  intros pl reg data docs d s name out w Hf Hw Ht Hx Hd Hs Hr Htd He Hesc Ha.
  assert (G : goods (template_text w d) d).
  { intros i Hi. rewrite forallb_forall in He. split; [now apply He|]. intros x X. exists i. auto. }
  assert (GD : forall n x, assoc n (w_docs w) = Some x -> goods (template_text w d) x).
  { intros n l Hl i Hi. destruct (Hx n l Hl) as (_ & X). rewrite forallb_forall in X. split; [now apply X|]. intros x Y. exists i. eauto 6. }
  destruct (C65_standard pl reg data docs d s name Hf Hw Ht (fun n x H => proj1 (Hx n x H)) Hd Hs Hr Htd) as [(pb & o & H & A)|(o & err & H & A)]; pose proof (answers_one _ _ _ _ _ _ _ Ha A) as X.
  - injection X as ->. destruct (weave w (standard_careful w Hw) (template_text w d) GD) as (_ & W & _). refine (woven_weaken _ _ _ _ _ (proj1 (W _ _ _ _ _ _ _ _ H G I))).
    intros y (x & ->). cbn [w w_reg]. rewrite Hesc. exact (proj1 (C18_escape_safe_and_lossless pl x)).
  - destruct err; discriminate X.
Qed.
Print Assumptions C78_standard.

(** The condition on [{{{x}}}] is needed. *)
Example C78_triple_is_raw : once reg0 (lit "{{{x}}}") (JObj [(lit "x", JStr (lit "<"))]) = AOk (lit "<")
  /\ once reg0 (lit "{{x}}") (JObj [(lit "x", JStr (lit "<"))]) = AOk (lit "&lt;").
Proof. split; vm_compute; reflexivity. Qed.

(** The hypotheses hold for the documents of C64 (a loop that includes a partial), for all data; the partial has markup, the values are escaped. *)
Example C78_nonvacuous : forall data, let w := mkWorld pl0 broken_reg data [(lit "p", broken_p)] in
  fits w /\ closed w /\ careful_world w /\ Forall (tame w) broken /\ Forall (regular w) broken /\ forallb escaping broken = true /\ (forall n x, assoc n (w_docs w) = Some x -> forallb escaping x = true)
  /\ rg_escape broken_reg = rg_escape (registry_new pl0) /\ template_text w broken (lit "<").
Proof.
  intros data w. destruct (C65_nonvacuous data []) as (H1 & H2 & H3 & H4 & H5 & _). fold w in H1, H2, H3, H4, H5.
  split; [exact H1|]. split; [exact H3|]. split; [exact (standard_careful w H2)|]. split; [exact H4|]. split; [exact H5|]. split; [reflexivity|]. split.
  { intros n x H. cbn [w w_docs assoc] in H. destruct (streq n (lit "p")); [|discriminate H]. injection H as <-. reflexivity. }
  split; [reflexivity|]. exists (IText (lit "<")). split; [constructor|]. right. exists (lit "p"), broken_p. split; [reflexivity|left; reflexivity].
Qed.
