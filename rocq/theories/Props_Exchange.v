(** * Props_Exchange: parts that mean the same may be exchanged (C73), and some parts that do (C74) *)
From Coq Require Import Lia String.
From Verif Require Import Str Json Ast Parser Messages Render Helpers Registry Tests Spec_Source Spec_Helpers Spec_Blocks Spec_Calls Spec_Sem Spec_Fail Spec_Total Spec_Exchange
  StrFacts SynLayout Props_Source SemFacts SemItems Props_Sem Props_Fail TotalFacts Props_Total Props_Laws ExchangeFacts.
Open Scope nat_scope. Open Scope list_scope.

Lemma refl_means w i : means_same w i i.
Proof. repeat split; intros; assumption. Qed.
Lemma refl_all w l : Forall2 (exchanged w) l l.
Proof. induction l; constructor; [apply ex_here, refl_means|assumption]. Qed.

(** ** C73: wherever parts that mean the same stand - in the template, in its blocks and branches, in the content of partial blocks, in the
    templates it includes - exchanging them changes nothing: not the text, not the error, not a panic *)
Theorem C73_exchange : forall pl reg ts data docs docs' d d' s s' name,
  let w := mkWorld pl reg data docs in let reg' := set_templates ts reg in let w' := mkWorld pl reg' data docs' in
  fits w -> closed w -> doc_ok (pl_penv pl) d -> Forall (regular w) d -> Forall (tame w) d -> doc_writes Loose d s ->
  fits w' -> closed w' -> doc_ok (pl_penv pl) d' -> Forall (regular w') d' -> Forall (tame w') d' -> doc_writes Loose d' s' ->
  exchanged_docs w w' -> Forall2 (exchanged w') d d' ->
  forall r, answers pl reg data name s r <-> answers pl reg' data name s' r.
Proof.
  intros pl reg ts data docs docs' d d' s s' name w reg' w' Hf Hc Hd Hr Ht Hs Hf' Hc' Hd' Hr' Ht' Hs' Hx Hdd.
  assert (Hk : forall n, assoc n (rg_templates reg) <> None <-> assoc n ts <> None).
  { intros n. pose proof (Hx n) as X. split; intros H.
    - assert (Y : assoc n docs <> None) by exact (cl_templates w Hc n H). cbn [w w_docs] in X. destruct (assoc n docs) as [e|]; [|congruence].
      destruct (assoc n (w_docs w')) as [e'|] eqn:E; [|destruct X]. destruct (fit_docs w' Hf' n e' E) as (_ & _ & _ & te & o & u & Et & _). cbn in Et. rewrite Et. discriminate.
    - assert (Y : assoc n docs' <> None) by exact (cl_templates w' Hc' n H). cbn [w' w_docs] in X. destruct (assoc n docs') as [e'|]; [|congruence].
      destruct (assoc n (w_docs w)) as [e|] eqn:E; [|destruct X]. destruct (fit_docs w Hf n e E) as (_ & _ & _ & te & o & u & Et & _). cbn in Et. rewrite Et. discriminate. }
  destruct (C65_once pl reg data docs d s name Hf Hc Hd Hs Hr Ht) as (A & B & C & r0 & Hr0 & R0).
  destruct (C65_once pl reg' data docs' d' s' name Hf' Hc' Hd' Hs' Hr' Ht') as (A' & B' & C' & r1 & Hr1 & R1).
  assert (X : answers pl reg' data name s' r0).
  { destruct r0 as [o|e|p|].
    - apply A in R0. destruct R0 as (pb & H). destruct (items_exchange pl reg ts data docs docs' Hx Hc _ _ _ _ _ _ _ _ H d' None I Hdd) as (q & _ & Hq). apply A'. exists q. exact Hq.
    - apply B in R0. destruct R0 as (o & err & -> & H). apply B'. exists o, err. split; [reflexivity|]. exact (items_err_exchange pl reg ts data docs docs' Hx Hc Hk name _ _ _ _ _ _ _ _ H d' None I Hdd).
    - apply C in R0. destruct R0 as (-> & o & H). apply C'. split; [reflexivity|]. exists o. exact (items_err_exchange pl reg ts data docs docs' Hx Hc Hk name _ _ _ _ _ _ _ _ H d' None I Hdd).
    - congruence. }
  intros r. split; intros H.
  - pose proof (answers_one _ _ _ _ _ _ _ H R0) as ->. exact X.
  - pose proof (answers_one _ _ _ _ _ _ _ H X) as ->. exact R0.
Qed.
(** in particular within one template, the registry staying as it is *)
Theorem C73_in_template : forall pl reg data docs d d' s s' name, let w := mkWorld pl reg data docs in
  fits w -> closed w -> doc_ok (pl_penv pl) d -> Forall (regular w) d -> Forall (tame w) d -> doc_writes Loose d s ->
  doc_ok (pl_penv pl) d' -> Forall (regular w) d' -> Forall (tame w) d' -> doc_writes Loose d' s' -> Forall2 (exchanged w) d d' ->
  forall r, answers pl reg data name s r <-> answers pl reg data name s' r.
Proof.
  intros pl reg data docs d d' s s' name w Hf Hc Hd Hr Ht Hs Hd' Hr' Ht' Hs' Hdd r.
  assert (E : set_templates (rg_templates reg) reg = reg) by (destruct reg; reflexivity).
  pose proof (C73_exchange pl reg (rg_templates reg) data docs docs d d' s s' name) as X. cbv zeta in X. rewrite E in X. apply X; try assumption.
  intros n. destruct (assoc n (w_docs w)) eqn:En; cbn [w w_docs] in En |- *; rewrite En; [|exact I]. apply refl_all.
Qed.

(** ** C74: parts that mean the same *)
(** all comments mean the same *)
Theorem C74_comments : forall w x y, means_same w (IComment x) (IComment y) /\ means_same w (IComment x) (IRawComment y).
Proof.
  intros w x y. split; (split; [reflexivity|]; split; [reflexivity|]; split; intros; split; intros H; inversion H; subst; constructor).
Qed.
(** the order of the named arguments of a call does not matter *)
Lemma hash_order w scs act hs hs' : Permutation hs hs' -> forall ps, hash_value w scs act hs ps -> exists ps', hash_value w scs act hs' ps' /\ Permutation ps ps'.
Proof.
  induction 1 as [|[k x] l l' _ IH|[k x] [k' x'] l|l1 l2 l3 _ IH1 _ IH2]; intros ps H.
  - exists ps. split; [exact H|apply Permutation_refl].
  - inversion H as [|? ? ? v ps0 Hx Hl]; subst. destruct (IH _ Hl) as (q & Hq & Q). exists ((k, v) :: q). split; [now constructor|now constructor].
  - inversion H as [|? ? ? v' ps0 Hx' Hl]; subst. inversion Hl as [|? ? ? v ps1 Hx Hl']; subst. exists ((k, v) :: (k', v') :: ps1). split; [repeat constructor; assumption|apply perm_swap].
  - destruct (IH1 _ H) as (q & Hq & Q). destruct (IH2 _ Hq) as (q' & Hq' & Q'). exists q'. split; [exact Hq'|]. eapply Permutation_trans; eassumption.
Qed.
Lemma hash_app w scs act l1 l2 ps1 ps2 : hash_value w scs act l1 ps1 -> hash_value w scs act l2 ps2 -> hash_value w scs act (l1 ++ l2) (ps1 ++ ps2).
Proof. revert ps1. induction l1 as [|[k x] l1 IH]; intros ps1 H1 H2; inversion H1; subst; [exact H2|]. cbn. constructor; [assumption|]. now apply IH. Qed.
Lemma hash_unapp w scs act l1 l2 ps : hash_value w scs act (l1 ++ l2) ps -> exists ps1 ps2, hash_value w scs act l1 ps1 /\ hash_value w scs act l2 ps2.
Proof.
  revert ps. induction l1 as [|[k x] l1 IH]; intros ps H; [exists [], ps; split; [constructor|exact H]|]. inversion H as [|? ? ? v qs Hx Hl]; subst.
  destruct (IH _ Hl) as (q1 & q2 & H1 & H2). exists ((k, v) :: q1), q2. split; [now constructor|exact H2].
Qed.
Lemma hash_fail_order w nm scs act hs hs' err : Permutation hs hs' -> hash_fails w nm scs act hs err -> hash_fails w nm scs act hs' err.
Proof.
  intros P H. inversion H as [? pre k x post pairs pairs' ? H1 H2 H3]; subst.
  destruct (in_split (k, x) hs') as (pre' & post' & ->). { apply (Permutation_in _ P). apply in_elt. }
  apply Permutation_app_inv in P. destruct (hash_order w scs act _ _ P _ (hash_app _ _ _ _ _ _ _ H1 H3)) as (ps & Hps & _).
  destruct (hash_unapp _ _ _ _ _ _ Hps) as (q1 & q2 & Q1 & Q2). eapply hf_one; eassumption.
Qed.
Lemma map_order w scs act hs hs' ps pairs : Permutation hs hs' -> hash_value w scs act hs pairs -> map_of ps pairs -> exists pairs', hash_value w scs act hs' pairs' /\ map_of ps pairs'.
Proof. intros P H (H1 & H2). destruct (hash_order _ _ _ _ _ P _ H) as (q & Hq & Q). exists q. split; [exact Hq|]. split; [exact H1|]. eapply Permutation_trans; eassumption. Qed.
Section order.
Variables (w : world) (hs hs' : list (str * expr)).
Hypothesis P : Permutation hs hs'.
Lemma cv_order scs act h t xs v : call_value w scs act (Call h t xs hs) v -> call_value w scs act (Call h t xs hs') v.
Proof.
  intros H. inversion H as [? ? ? ? n f vs pairs ps ? H1 H2 H3 H4 H5 H6| |]; subst; [|now apply cv_variable|now apply cv_missing].
  destruct (map_order _ _ _ _ _ _ _ P H4 H5) as (q & Hq & Q). eapply cv_helper; eassumption.
Qed.
Lemma hc_order scs act blk n f xs text prop p : helper_call w scs act blk n f xs hs text prop p -> helper_call w scs act blk n f xs hs' text prop p.
Proof.
  intros (H & vs & pairs & ps & H1 & H2 & H3 & H4). split; [exact H|]. destruct (map_order _ _ _ _ _ _ _ P H2 H3) as (q & Hq & Q). exists vs, q, ps. repeat (split; [assumption|]). assumption.
Qed.
Lemma hcf_order nm scs act blk n f xs text prop e : helper_call_fails w nm scs act blk n f xs hs text prop e -> helper_call_fails w nm scs act blk n f xs hs' text prop e.
Proof.
  intros H. inversion H; subst; [now apply hc_cycle|now apply hc_arg|eapply hc_hash; [assumption|eassumption|eapply hash_fail_order; eassumption]|apply hc_run; now apply hc_order].
Qed.
Lemma cf_order nm scs act h t xs e : call_fails w nm scs act (Call h t xs hs) e -> call_fails w nm scs act (Call h t xs hs') e.
Proof. intros H. inversion H; subst; [eapply cf_helper; [eassumption|now apply hcf_order]|now apply cf_strict]. Qed.
Lemma ba_order scs act n x v : block_arg w scs act n x hs v -> block_arg w scs act n x hs' v.
Proof.
  intros (H1 & H2 & H3 & pairs & ps & H4 & H5). destruct (map_order _ _ _ _ _ _ _ P H4 H5) as (q & Hq & Q). repeat (split; [assumption|]). exists q, ps. split; assumption.
Qed.
Lemma pa_order scs act n xs sc : partial_args w scs act n xs hs sc -> partial_args w scs act n xs hs' sc.
Proof. intros (vs & pairs & ps & H1 & H2 & H3 & H4). destruct (map_order _ _ _ _ _ _ _ P H2 H3) as (q & Hq & Q). exists vs, q, ps. repeat (split; [assumption|]). assumption. Qed.
Lemma inf_order nm scs act pb n xs e : include_fails w nm scs act pb n xs hs e -> include_fails w nm scs act pb n xs hs' e.
Proof.
  intros H. inversion H; subst; [now apply inf_cycle|now apply inf_unknown|apply inf_hash; [assumption|assumption|eapply hash_fail_order; eassumption]|].
  destruct (hash_order _ _ _ _ _ P _ ltac:(eassumption)) as (q & Hq & _). eapply inf_args; eassumption.
Qed.
Ltac ord := first [eassumption | apply cv_order; eassumption | apply hc_order; eassumption | apply hcf_order; eassumption | apply cf_order; eassumption | apply ba_order; eassumption | apply pa_order; eassumption | apply inf_order; eassumption].
Lemma ro_out i j : reordered hs hs' i j -> forall scs act pb pb' s e out, item_out w scs act pb pb' s e i out -> item_out w scs act pb pb' s e j out.
Proof. intros R scs act pb pb' s e out H. destruct R; inversion H; subst; try (econstructor; ord; fail).
  match goal with H1 : hash_value _ _ _ hs _, H2 : map_of _ _ |- _ => destruct (map_order _ _ _ _ _ _ _ P H1 H2) as (q & Hq & Q) end. eapply io_own; eassumption.
Qed.
Lemma ro_err i j : reordered hs hs' i j -> forall nm scs act pb s e out err, item_err w nm scs act pb s e i out err -> item_err w nm scs act pb s e j out err.
Proof. intros R nm scs act pb s e out err H. destruct R; inversion H; subst; try (econstructor; ord; fail).
  match goal with H1 : hash_value _ _ _ hs _, H2 : map_of _ _ |- _ => destruct (map_order _ _ _ _ _ _ _ P H1 H2) as (q & Hq & Q) end. eapply ie_own; eassumption.
Qed.
End order.
Lemma reordered_sym hs hs' i j : reordered hs hs' i j -> reordered hs' hs j i.
Proof. intros H. destruct H; constructor. Qed.
Theorem C74_named_argument_order : forall w hs hs' i j, Permutation hs hs' -> reordered hs hs' i j -> means_same w i j.
Proof.
  intros w hs hs' i j P R. pose proof (Permutation_sym P) as P'. pose proof (reordered_sym hs hs' i j R) as R'. split; [destruct R; reflexivity|]. split; [destruct R; reflexivity|]. split; intros; split; intros H.
  - exact (ro_out w hs hs' P i j R _ _ _ _ _ _ _ H).
  - exact (ro_out w hs' hs P' j i R' _ _ _ _ _ _ _ H).
  - exact (ro_err w hs hs' P i j R _ _ _ _ _ _ _ _ H).
  - exact (ro_err w hs' hs P' j i R' _ _ _ _ _ _ _ _ H).
Qed.
(** a statement with a computed target is the statement of that target: the arguments after it are not used *)
Theorem C74_computed_statement : forall w tr m c xs hs, means_same w (IDyn tr m false c xs hs) (ICall tr m false c).
Proof.
  intros w tr m c xs hs. split; [reflexivity|]. split; [reflexivity|]. split; intros; split; intros H; inversion H; subst; econstructor; eassumption.
Qed.
(** triple braces make no difference to a partial, and none at all when the registry does not escape *)
Theorem C74_triple_partial : forall w tr tr' m c, means_same w (ICall tr m true c) (ICall tr' m true c).
Proof.
  intros w tr tr' m c. split; [reflexivity|]. split; [reflexivity|]. split; intros; split; intros H; inversion H; subst; econstructor; eassumption.
Qed.
Theorem C74_triple_unescaped : forall w tr tr' m c, (forall x, rg_escape (w_reg w) x = x) -> means_same w (ICall tr m false c) (ICall tr' m false c).
Proof.
  intros w tr tr' m c He. assert (X : forall (t t' : bool) y, (if t then y else Spec_Sem.written (rg_escape (w_reg w)) y) = (if t' then y else Spec_Sem.written (rg_escape (w_reg w)) y)).
  { intros t t' y. assert (Spec_Sem.written (rg_escape (w_reg w)) y = y) as -> by (destruct y; [reflexivity|apply He]). destruct t, t'; reflexivity. }
  split; [reflexivity|]. split; [reflexivity|]. split; intros; split; intros H; inversion H; subst; try (econstructor; eassumption).
  - rewrite (X tr tr'). eapply io_value; eassumption.
  - rewrite (X tr tr'). eapply io_print_value; eassumption.
  - rewrite (X tr' tr). eapply io_value; eassumption.
  - rewrite (X tr' tr). eapply io_print_value; eassumption.
Qed.
(** the branches of [with], [each] and of partial blocks are never used *)
Theorem C74_unused_branches : forall w p n xs hs m body bs bs' m', p = true \/ (standard w n /\ (n = lit "with" \/ n = lit "each")) ->
  tl_before (next_tag bs m') = tl_before (next_tag bs' m') ->
  means_same w (IBlock p (Call (HdName n) [] xs hs) m body bs m') (IBlock p (Call (HdName n) [] xs hs) m body bs' m').
Proof.
  intros w p n xs hs m body bs bs' m' Hn Et. split; [reflexivity|]. split; [reflexivity|].
  assert (N : p = false -> assoc n (rg_helpers (w_reg w)) <> None /\ n <> lit "if" /\ n <> lit "unless").
  { intros ->. destruct Hn as [Hn|((h & _ & Hh) & Hn)]; [discriminate Hn|]. rewrite Hh. split; [discriminate|]. destruct Hn as [-> | ->]; split; discriminate. }
  assert (O : forall scs name f prop, p = false -> ~ block_by w scs n name f prop).
  { intros scs name f prop Hp Hby. destruct (N Hp) as (N1 & _). destruct Hn as [Hn|((h & Hb & Hh) & Hn)]; [congruence|]. destruct Hby as [g Hg Hng|]; [|congruence]. apply Hng. replace g with h by congruence. split; [|exact Hb]. destruct Hn as [-> | ->]; cbn; auto. }
  split; intros; split; intros H; inversion H; subst; try (econstructor; eassumption); try (destruct (N eq_refl) as (N1 & N2 & N3); congruence); try (match goal with Hby : block_by _ _ _ _ _ _ |- _ => destruct (O _ _ _ _ eq_refl Hby) end).
  all: try (match goal with H : context [tl_before (next_tag ?x _)] |- _ => lazymatch type of H with _ = _ => fail | _ => first [rewrite Et in H|rewrite <- Et in H] end end; econstructor; eassumption).
  all: destruct (N eq_refl) as (_ & N2 & N3); first [destruct (N2 eq_refl)|destruct (N3 eq_refl)].
Qed.

(** A partial whose name is computed is the partial of that name: at the top level of a template, [{{> (c) ...}}] and [{{> n ...}}] have the same
    answer when the value of [c] prints as [n]. *)
Lemma replace_out w i j : before i = before j -> after i = after j ->
  (forall pb pb' s e out, item_out w [] [] pb pb' s e i out -> item_out w [] [] pb pb' s e j out) ->
  forall d1 d2 pb pb' s e out, items_out w [] [] pb pb' s e (d1 ++ i :: d2) out -> items_out w [] [] pb pb' s e (d1 ++ j :: d2) out.
Proof.
  intros Eb Ea Ho. induction d1 as [|x d1 IH]; intros d2 pb pb' s e out H; cbn [app] in H |- *; inversion H as [|? ? ? pb1 ? ? ? ? ? o1 o2 H1 H2]; subst.
  - eapply out_cons; [apply Ho; exact H1|rewrite <- Ea; exact H2].
  - eapply out_cons; [|apply IH; exact H2]. destruct d1; [cbn in *; rewrite <- Eb; exact H1|exact H1].
Qed.
Lemma replace_err w nm i j : before i = before j -> after i = after j ->
  (forall pb pb' s e out, item_out w [] [] pb pb' s e i out -> item_out w [] [] pb pb' s e j out) ->
  (forall pb s e out err, item_err w nm [] [] pb s e i out err -> item_err w nm [] [] pb s e j out err) ->
  forall d1 d2 pb s e out err, items_err w nm [] [] pb s e (d1 ++ i :: d2) out err -> items_err w nm [] [] pb s e (d1 ++ j :: d2) out err.
Proof.
  intros Eb Ea Ho He. induction d1 as [|x d1 IH]; intros d2 pb s e out err H; cbn [app] in H |- *; inversion H as [? ? ? ? ? ? ? ? ? H1|? ? ? pb1 ? ? ? ? o1 o2 ? H1 H2]; subst.
  - apply err_here. now apply He.
  - eapply err_later; [apply Ho; exact H1|rewrite <- Ea; exact H2].
  - apply err_here. destruct d1; [cbn in *; rewrite <- Eb; exact H1|exact H1].
  - eapply err_later; [|apply IH; exact H2]. destruct d1; [cbn in *; rewrite <- Eb; exact H1|exact H1].
Qed.
Theorem C74_computed_partial : forall pl reg data docs d1 d2 s s' name tr m c v n xs hs, let w := mkWorld pl reg data docs in
  let d := d1 ++ ICall tr m true (Call (HdName n) [] xs hs) :: d2 in let d' := d1 ++ IDyn tr m true c xs hs :: d2 in
  fits w -> closed w -> doc_ok (pl_penv pl) d -> Forall (regular w) d -> Forall (tame w) d -> doc_writes Loose d s ->
  doc_ok (pl_penv pl) d' -> Forall (regular w) d' -> Forall (tame w) d' -> doc_writes Loose d' s' ->
  call_value w [] [] c (Some v) -> shown (pl_fstr pl) v n ->
  forall r, answers pl reg data name s r <-> answers pl reg data name s' r.
Proof.
  intros pl reg data docs d1 d2 s s' name tr m c v n xs hs w d d' Hf Hc Hd Hr Ht Hs Hd' Hr' Ht' Hs' Hv Hn.
  assert (Ho : forall pb pb' s e out, item_out w [] [] pb pb' s e (ICall tr m true (Call (HdName n) [] xs hs)) out -> item_out w [] [] pb pb' s e (IDyn tr m true c xs hs) out).
  { intros pb pb' s0 e out H. inversion H; subst. match goal with H : partial_name _ _ _ |- _ => destruct H as (E & _) end. cbn in E. rewrite app_nil_r in E. subst. eapply io_dyn_partial; eassumption. }
  assert (He : forall pb s e out err, item_err w name [] [] pb s e (ICall tr m true (Call (HdName n) [] xs hs)) out err -> item_err w name [] [] pb s e (IDyn tr m true c xs hs) out err).
  { intros pb s0 e out err H. inversion H; subst.
    - exfalso. match goal with H : forall n, ~ names _ _ n |- _ => apply (H n) end. split; [reflexivity|]. split; [symmetry; apply app_nil_r|exact I].
    - match goal with H : partial_name _ _ _ |- _ => destruct H as (E & _) end. cbn in E. rewrite app_nil_r in E. subst. eapply ie_dyn_enter; eassumption.
    - match goal with H : partial_name _ _ _ |- _ => destruct H as (E & _) end. cbn in E. rewrite app_nil_r in E. subst. eapply ie_dyn_partial; eassumption. }
  destruct (C65_once pl reg data docs d s name Hf Hc Hd Hs Hr Ht) as (A & B & C & r0 & Hr0 & R0).
  destruct (C65_once pl reg data docs d' s' name Hf Hc Hd' Hs' Hr' Ht') as (A' & B' & C' & r1 & Hr1 & R1).
  assert (X : answers pl reg data name s' r0).
  { destruct r0 as [o|e|p|].
    - apply A in R0. destruct R0 as (pb & H). apply A'. exists pb. revert H. apply replace_out; try reflexivity. exact Ho.
    - apply B in R0. destruct R0 as (o & err & -> & H). apply B'. exists o, err. split; [reflexivity|]. revert H. apply replace_err; try reflexivity; assumption.
    - apply C in R0. destruct R0 as (-> & o & H). apply C'. split; [reflexivity|]. exists o. revert H. apply replace_err; try reflexivity; assumption.
    - congruence. }
  intros r. split; intros H.
  - pose proof (answers_one _ _ _ _ _ _ _ H R0) as ->. exact X.
  - pose proof (answers_one _ _ _ _ _ _ _ H X) as ->. exact R0.
Qed.

(** ** The hypotheses hold: a registry with one template, changed together with the template that includes it *)
Lemma one_doc te reg data d : rg_templates reg = [(lit "p", te)] -> rg_helpers reg = rg_helpers reg0 -> rg_missing reg = None -> rg_block_missing reg = None -> rg_link reg = None ->
  template_compile pl0 (mkOpts (lit "p") 0 0) (doc_text d) = AOk te -> doc_ok pe0 d -> forallb tidy d = true -> calm_end d ->
  let w := mkWorld pl0 reg data [(lit "p", d)] in Forall (regular w) d -> fits w /\ only_standard w /\ closed w.
Proof.
  intros Et Eh E1 E2 E3 Hte Hd Ht Hce w Hr.
  assert (S : only_standard w). { split; [|repeat split; assumption]. intros n f H. cbn [w w_reg] in H. rewrite Eh in H. exact H. }
  split.
  { split; [intros src c; apply Permutation_refl|]. intros n d0 H. cbn [assoc w w_docs] in H. destruct (streq n (lit "p")) eqn:E; [|discriminate H]. injection H as <-.
    split; [exact Hd|]. split; [exact Hr|]. split; [exact Hce|]. apply streq_eq in E. subst n. exists te, (mkOpts (lit "p") 0 0), (doc_text d).
    split; [cbn [w w_reg]; rewrite Et; reflexivity|]. split; [apply (doc_canon pe0); exact Hd|exact Hte]. }
  split; [exact S|]. apply standard_closed; [exact S| |].
  - intros n. cbn [w w_reg w_docs assoc]. rewrite Et. cbn [assoc]. destruct (streq n (lit "p")); [discriminate|intros H; destruct (H eq_refl)].
  - intros n d0 H. cbn [assoc w w_docs] in H. destruct (streq n (lit "p")); [|discriminate H]. injection H as <-. exact Ht.
Qed.
Lemma calm_text (l : list item) x : calm_end (l ++ [IText x]).
Proof. intros a c m y m' X. apply app_inj_tail in X. destruct X as [_ X]. discriminate X. Qed.
Definition exch_p : list item := [IText (lit "<"); show "x"; IComment (lit "old"); IText (lit ">")].
Definition exch_p' : list item := [IText (lit "<"); IDyn false nt false (var "x") [ENull] []; IComment (lit "new"); IText (lit ">")].
Definition exch_te (d : list item) : template :=
  match template_compile pl0 (mkOpts (lit "p") 0 0) (doc_text d) with AOk te => te | _ => mkTemplate [] (NDoc []) None end.
Definition exch_reg : registry := set_templates [(lit "p", exch_te exch_p)] reg0.
Definition exch_call (hs : list (str * expr)) : item := ICall false nt true (Call (HdName (lit "p")) [] [] hs).
Definition exch_d (hs : list (str * expr)) : list item :=
  [IText (lit "a"); IBlock false (Call (HdName (lit "each")) [] [EPath (HdName (lit "l")) []] []) nt [exch_call hs; IText (lit ",")] [] nt; show "gone"].
Definition exch_hs : list (str * expr) := [(lit "x", ENum (lit "1")); (lit "y", ENull)].
Lemma exch_regular : forall v hs, quiet_docs v -> Forall (regular v) (exch_d hs).
Proof.
  intros v hs Hq. unfold exch_d, exch_call, show, var. apply Forall_cons; [constructor|]. apply Forall_cons; [|apply Forall_cons; [constructor|apply Forall_nil]].
  apply reg_block; [reflexivity|exact I|intros X; discriminate X|apply Forall_nil| | |apply Forall_nil].
  - intros _. right. split; [reflexivity|]. right. exact Hq.
  - apply Forall_cons; [apply reg_partial; reflexivity|]. apply Forall_cons; [constructor|apply Forall_nil].
Qed.
Lemma exch_ok : doc_ok pe0 (exch_d exch_hs).
Proof. unfold doc_ok, exch_d, exch_call, exch_hs, show, var. ok_items. Qed.
Lemma exch_ok' : doc_ok pe0 (exch_d (rev exch_hs)).
Proof. unfold doc_ok, exch_d, exch_call, exch_hs, show, var. cbn [rev app]. ok_items. Qed.
Example C73_nonvacuous : let data := JObj [(lit "l", JArr [JNull; JNull])] in let ts := [(lit "p", exch_te exch_p')] in
  let w := mkWorld pl0 exch_reg data [(lit "p", exch_p)] in let w' := mkWorld pl0 (set_templates ts exch_reg) data [(lit "p", exch_p')] in
  let d := exch_d exch_hs in let d' := exch_d (rev exch_hs) in
  (fits w /\ closed w /\ doc_ok pe0 d /\ Forall (regular w) d /\ Forall (tame w) d)
  /\ (fits w' /\ closed w' /\ doc_ok pe0 d' /\ Forall (regular w') d' /\ Forall (tame w') d')
  /\ exchanged_docs w w' /\ Forall2 (exchanged w') d d' /\ doc_text d <> doc_text d'
  /\ once exch_reg (doc_text d) data = AOk (lit "a<1>,<1>,").
Proof.
  intros data ts w w' d d'.
  assert (K : forall e, e = exch_p \/ e = exch_p' -> doc_ok pe0 e /\ forallb tidy e = true /\ calm_end e /\ (forall w, Forall (regular w) e) /\ template_compile pl0 (mkOpts (lit "p") 0 0) (doc_text e) = AOk (exch_te e)).
  { intros e [-> | ->]; (split; [unfold doc_ok, exch_p, exch_p', show, var; ok_items|]; split; [reflexivity|]; split; [first [exact (calm_text (firstn 3 exch_p) _)|exact (calm_text (firstn 3 exch_p') _)]|]; split; [intros; repeat constructor|vm_compute; reflexivity]). }
  destruct (K exch_p (or_introl eq_refl)) as (P1 & P2 & P3 & P4 & P5). destruct (K exch_p' (or_intror eq_refl)) as (Q1 & Q2 & Q3 & Q4 & Q5).
  destruct (one_doc (exch_te exch_p) exch_reg data exch_p eq_refl eq_refl eq_refl eq_refl eq_refl P5 P1 P2 P3 (P4 _)) as (F & S & C).
  destruct (one_doc (exch_te exch_p') (set_templates ts exch_reg) data exch_p' eq_refl eq_refl eq_refl eq_refl eq_refl Q5 Q1 Q2 Q3 (Q4 _)) as (F' & S' & C').
  pose proof exch_regular as R.
  assert (Q : forall v e, w_docs v = [(lit "p", e)] -> existsb loud e = false -> quiet_docs v).
  { intros v e Ev He n x H. rewrite Ev in H. cbn [assoc] in H. destruct (streq n (lit "p")); [|discriminate H]. injection H as <-. exact He. }
  assert (T : forall v hs, only_standard v -> forallb tidy (exch_d hs) = true -> Forall (tame v) (exch_d hs)).
  { intros v hs Hv H. apply Forall_forall. intros i Hi. apply C65_standard_tame; [exact Hv|]. rewrite forallb_forall in H. exact (H i Hi). }
  split; [split; [exact F|split; [exact C|split; [exact exch_ok|split; [exact (R w _ (Q w exch_p eq_refl eq_refl))|exact (T w exch_hs S eq_refl)]]]]|].
  split; [split; [exact F'|split; [exact C'|split; [exact exch_ok'|split; [exact (R w' _ (Q w' exch_p' eq_refl eq_refl))|exact (T w' (rev exch_hs) S' eq_refl)]]]]|].
  split.
  { intros n. cbn [w w' w_docs assoc]. destruct (streq n (lit "p")); [|exact I]. unfold exch_p, exch_p', show. repeat apply Forall2_cons; try apply Forall2_nil; apply ex_here; try apply refl_means.
    - destruct (C74_computed_statement w' false nt (var "x") [ENull] []) as (A1 & A2 & A3 & A4). split; [exact (eq_sym A1)|]. split; [exact (eq_sym A2)|]. split; intros; symmetry; [apply A3|apply A4].
    - apply C74_comments. }
  split; [|split; [vm_compute; discriminate|vm_compute; reflexivity]].
  unfold d, d', exch_d. repeat apply Forall2_cons; try apply Forall2_nil; [apply ex_here, refl_means| |apply ex_here, refl_means]. apply ex_inside; [|constructor].
  apply Forall2_cons; [|apply Forall2_cons; [apply ex_here, refl_means|constructor]]. apply ex_here, (C74_named_argument_order w' exch_hs (rev exch_hs)); [apply Permutation_rev|constructor].
Qed.
Example C74_nonvacuous : let data := JObj [(lit "pick", JStr (lit "p"))] in let w := mkWorld pl0 exch_reg data [(lit "p", exch_p)] in
  let d := [IText (lit "a"); exch_call exch_hs] in let d' := [IText (lit "a"); IDyn false nt true (var "pick") [] exch_hs] in
  (doc_ok pe0 d /\ Forall (regular w) d /\ Forall (tame w) d) /\ (doc_ok pe0 d' /\ Forall (regular w) d' /\ Forall (tame w) d')
  /\ call_value w [] [] (var "pick") (Some (JStr (lit "p"))) /\ shown (pl_fstr pl0) (JStr (lit "p")) (lit "p")
  /\ doc_text d' = lit "a{{> (pick) x=1 y=null}}" /\ once exch_reg (doc_text d) data = AOk (lit "a<1>") /\ once exch_reg (doc_text d') data = AOk (lit "a<1>").
Proof.
  intros data w d d'. assert (S : only_standard w) by (split; [intros n f H; exact H|repeat split]).
  split; [split; [unfold doc_ok, d, exch_call, exch_hs, show, var; ok_items|]; split; [repeat constructor|apply Forall_forall; intros i Hi; apply C65_standard_tame; [exact S|]; cbn in Hi; repeat (destruct Hi as [<-|Hi]; [reflexivity|]); contradiction Hi]|].
  split; [split; [unfold doc_ok, d', exch_hs, show, var; ok_items|]; split; [repeat constructor|apply Forall_forall; intros i Hi; apply C65_standard_tame; [exact S|]; cbn in Hi; repeat (destruct Hi as [<-|Hi]; [reflexivity|]); contradiction Hi]|].
  split; [apply cv_variable; [notvar|see]|]. split; [constructor|]. split; [reflexivity|]. split; vm_compute; reflexivity.
Qed.
