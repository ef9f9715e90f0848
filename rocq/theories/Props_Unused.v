(** * Props_Unused: helpers that are not called have no effect (C79). *)
From Coq Require Import Lia String.
From Verif Require Import Str Lexer Json Ast Parser Render Helpers Registry Tests StrFacts Spec_Lexer Spec_Values Spec_Helpers Spec_Blocks Spec_Calls Props_Calls CycleFacts Spec_Source SynBlock SynLayout Props_Source Spec_Sem SemFacts SemItems Props_Sem Spec_Fail FailItems Props_Fail Spec_Total TotalFacts Props_Total Spec_Unused UnusedFacts.
Open Scope nat_scope. Open Scope list_scope.

Lemma regular_docs w w' : w_docs w = w_docs w' -> forall i, regular w i -> regular w' i.
Proof.
  intros E i. assert (Q : quiet_docs w <-> quiet_docs w') by (unfold quiet_docs; rewrite E; reflexivity).
  assert (X : forall m i, isize i <= m -> regular w i -> regular w' i); [|exact (X (isize i) i (le_n _))]. clear i.
  induction m as [|m IH]; intros i Hm H; [pose proof (isize_pos i); lia|].
  assert (B : forall l, list_sum (map isize l) <= m -> Forall (regular w) l -> Forall (regular w') l).
  { intros l Hl Hj. rewrite Forall_forall in *. intros j Hin. apply IH; [|apply Hj, Hin]. pose proof (list_sum_in isize j l Hin). lia. }
  destruct H as [x|tr t c|tr t c H|tr t c xs hs|tr t c xs hs H|x|x|x|esc parts|c t x t'|c t body bs t' H1 H2 H3 H4 H5 H6 H7|c t body bs t' H1 H2 H3 H4 H5 H6]; try (constructor; try assumption; fail); cbn [isize] in Hm.
  - apply reg_block; try assumption.
    + intros Hn. destruct (H5 Hn) as [Y|(Y1 & Y2)]; [left; exact Y|right]. split; [exact Y1|]. rewrite Q in Y2. exact Y2.
    + apply B; [lia|exact H6].
    + rewrite Forall_forall in *. intros b Hb. apply B; [|rewrite Forall_forall; exact (proj1 (Forall_forall _ _) (H7 b Hb))].
      pose proof (list_sum_in (fun b : branch => S (list_sum (map isize (snd b)))) b bs Hb) as L. cbv beta in L. unfold br_body. unfold branch in *. lia.
  - apply reg_partial_block; try assumption; [rewrite <- Q; exact H5|apply B; [lia|exact H6]].
Qed.
Lemma fits_helpers pl reg hs' data docs : fits (mkWorld pl reg data docs) -> fits (mkWorld pl (set_helpers hs' reg) data docs).
Proof.
  intros [F1 F2]. constructor; [exact F1|]. intros n d H. destruct (F2 n d H) as (X1 & X2 & X3 & X4). split; [exact X1|]. split; [|split; [exact X3|exact X4]].
  eapply Forall_impl; [|exact X2]. intros i. now apply regular_docs.
Qed.

(** Two registries that differ only in what is registered as the helper [n] (which may be nothing) render a template that calls no helper [n],
    and whose partials do not, to the same result, with the same text written. *)
Theorem C79_unused_helper : forall pl reg hs' n data docs d s name wr o te, let w := mkWorld pl reg data docs in
  (forall m, m <> n -> assoc m hs' = assoc m (rg_helpers reg)) ->
  fits w -> closed w -> doc_ok (pl_penv pl) d -> doc_writes Loose d s -> Forall (regular w) d -> Forall (tame w) d ->
  forallb (item_not n) d = true -> (forall m x, assoc m docs = Some x -> forallb (item_not n) x = true) ->
  (forall h s, exists n, wr h s = WOk n) -> template_compile pl o s = AOk te ->
  exists N, forall fuel, N <= fuel ->
    let x := template_render fuel pl reg name (te_tpl te) data wr [] in
    let x' := template_render fuel pl (set_helpers hs' reg) name (te_tpl te) data wr [] in
    fst x' = fst x /\ fst x <> AFuel /\ ((forall p, fst x <> APanic p) -> concat (snd x') = concat (snd x)).
Proof.
  intros pl reg hs' n data docs d s name wr o te w Hh Hf Hc Hd Hs Hr Ht Hn Hdn Hw Hte.
  pose proof (fits_helpers pl reg hs' data docs Hf) as Hf'.
  assert (Hr' : Forall (regular (mkWorld pl (set_helpers hs' reg) data docs)) d) by (eapply Forall_impl; [|exact Hr]; intros i; now apply regular_docs).
  destruct (C65_total w name d Hf Hc Hd Ht) as [(pb & out & H)|(out & err & H)].
  - pose proof (proj1 (proj1 (proj2 (out_move pl reg hs' data docs n Hh Hdn)) _ _ _ _ _ _ _ _ H Hn I)) as H'.
    destruct (C55_semantics pl reg data docs d s pb out name wr o te Hf Hd Hs Hr H Hw Hte) as (N & HN).
    destruct (C55_semantics pl (set_helpers hs' reg) data docs d s pb out name wr o te Hf' Hd Hs Hr' H' Hw Hte) as (N' & HN').
    exists (N + N'). intros fuel Hfu x x'. destruct (HN fuel ltac:(lia)) as (p1 & E1 & F1). destruct (HN' fuel ltac:(lia)) as (p2 & E2 & F2). unfold x, x'. rewrite E1, E2. cbn [fst snd].
    split; [reflexivity|]. split; [discriminate|]. intros _. congruence.
  - pose proof (proj1 (proj2 (err_move pl reg hs' data docs n Hh Hdn name)) _ _ _ _ _ _ _ _ H Hn I) as H'. destruct err as [err|].
    + destruct (C64_semantics pl reg data docs d s out err name wr o te Hf Hd Hs Hr H Hw Hte) as (N & HN).
      destruct (C64_semantics pl (set_helpers hs' reg) data docs d s out err name wr o te Hf' Hd Hs Hr' H' Hw Hte) as (N' & HN').
      exists (N + N'). intros fuel Hfu x x'. destruct (HN fuel ltac:(lia)) as (p1 & E1 & F1). destruct (HN' fuel ltac:(lia)) as (p2 & E2 & F2). unfold x, x'. rewrite E1, E2. cbn [fst snd].
      split; [reflexivity|]. split; [discriminate|]. intros _. congruence.
    + destruct (C64_panics pl reg data docs d s out name wr o te Hf Hd Hs Hr H Hw Hte) as (N & HN).
      destruct (C64_panics pl (set_helpers hs' reg) data docs d s out name wr o te Hf' Hd Hs Hr' H' Hw Hte) as (N' & HN').
      exists (N + N'). intros fuel Hfu x x'. pose proof (HN fuel ltac:(lia)) as E1. pose proof (HN' fuel ltac:(lia)) as E2. unfold x, x'. rewrite E1, E2.
      split; [reflexivity|]. split; [discriminate|]. intros X. destruct (X _ eq_refl).
Qed.
Print Assumptions C79_unused_helper.

(** [helpers_mut().insert] and [helpers_mut().remove], then [once] *)
Theorem C79_once : forall pl reg f n data docs d s name r, let w := mkWorld pl reg data docs in
  fits w -> closed w -> doc_ok (pl_penv pl) d -> doc_writes Loose d s -> Forall (regular w) d -> Forall (tame w) d ->
  forallb (item_not n) d = true -> (forall m x, assoc m docs = Some x -> forallb (item_not n) x = true) ->
  (answers pl (helper_insert n f reg) data name s r <-> answers pl reg data name s r)
  /\ (answers pl (helper_remove n reg) data name s r <-> answers pl reg data name s r).
Proof.
  intros pl reg f n data docs d s name r w Hf Hc Hd Hs Hr Ht Hn Hdn. destruct (compiles pl d s (mkOpts name 0 0) Hd Hs) as (te & Hte).
  assert (G : forall hs', (forall m, m <> n -> assoc m hs' = assoc m (rg_helpers reg)) -> answers pl (set_helpers hs' reg) data name s r <-> answers pl reg data name s r).
  { intros hs' Hh. destruct (C79_unused_helper pl reg hs' n data docs d s name string_writer _ te Hh Hf Hc Hd Hs Hr Ht Hn Hdn ltac:(intros; eexists; reflexivity) Hte) as (N & HN).
    assert (E : forall fuel, N <= fuel -> registry_once fuel pl (set_helpers hs' reg) name s data = registry_once fuel pl reg name s data).
    { intros fuel Hfu. destruct (HN fuel Hfu) as (H1 & H2 & H3). unfold registry_once. rewrite Hte. unfold to_str.
      destruct (template_render fuel pl reg name (te_tpl te) data string_writer []) as [x p], (template_render fuel pl (set_helpers hs' reg) name (te_tpl te) data string_writer []) as [x' p']. cbn [fst snd] in *. subst x'.
      destruct x; try reflexivity. f_equal. apply H3. discriminate. }
    split; intros (M & HM); exists (N + M); intros fuel Hfu; [rewrite <- E by lia|rewrite E by lia]; apply HM; lia. }
  split; apply G; intros m Hm; [now apply assoc_set_neq|now apply assoc_del_neq].
Qed.
Print Assumptions C79_once.

(** The hypotheses hold for the documents of C64 (a loop that includes a partial), for all data and [n] such as [json] *)
Example C79_nonvacuous : forall data, let w := mkWorld pl0 broken_reg data [(lit "p", broken_p)] in
  fits w /\ closed w /\ Forall (regular w) broken /\ Forall (tame w) broken /\ forallb (item_not (lit "json")) broken = true /\ forallb (item_not (lit "x")) broken = true
  /\ (forall m x, assoc m (w_docs w) = Some x -> forallb (item_not (lit "json")) x = true) /\ forallb (item_not (lit "each")) broken = false /\ forallb (item_not (lit "x")) broken_p = false.
Proof.
  intros data w. destruct (C65_nonvacuous data []) as (H1 & H2 & H3 & H4 & H5 & _). fold w in H1, H2, H3, H4, H5.
  repeat (split; [assumption|]). split; [reflexivity|]. split; [reflexivity|]. split; [|split; reflexivity].
  intros n x H. cbn [w w_docs assoc] in H. destruct (streq n (lit "p")); [|discriminate H]. injection H as <-. reflexivity.
Qed.
