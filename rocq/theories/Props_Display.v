(** * Props_Display: what templates and nodes show of themselves (C63). *)
From Coq Require Import Lia String.
From Verif Require Import Str Lexer Json Ast ErrInfo Parser Render Helpers Registry Tests StrFacts Spec_Lexer Spec_Ast DocProps Spec_Source SynBlock SynLayout Spec_Display Props_Context Props_Source.
Open Scope nat_scope. Open Scope list_scope.

(** A compiled template displays its source, so compiling what it displays gives it again. *)
Theorem C63_template : forall pl o src t, template_compile pl o src = AOk t ->
  template_display t = Some src /\ forall s, template_display t = Some s -> template_compile pl o s = AOk t.
Proof.
  intros pl o src t H. assert (D : template_display t = Some src).
  { unfold template_compile in H. destruct (compile (pl_penv pl) o src) as [n fs| | | ] eqn:C; try discriminate H. injection H as <-. unfold template_display. cbn [te_src te_node].
    destruct (compile_doc _ _ _ _ _ C) as (toks & ns & _ & -> & _). reflexivity. }
  split; [exact D|]. intros s E. rewrite D in E. injection E as <-. exact H.
Qed.

(** The source texts of the nodes of a document follow each other in the source, as long as no tag was accepted without its end;
    together they are the source, unless compilation stopped early (C15). *)
Lemma piece src n e : Forall (valid_span src) (flat_map leaf_spans (node_leaves n) ++ flat_map block_own_spans (node_blocks false n)) -> node_end src n = Some e -> node_start n <= e ->
  exists s, slice src (node_start n) e = Some s /\ node_str src n = Some s.
Proof.
  intros H E L. apply Forall_app in H. destruct H as [H1 H2].
  assert (S : forall p q, In p (flat_map leaf_spans (node_leaves n) ++ flat_map block_own_spans (node_blocks false n)) -> In q (flat_map leaf_spans (node_leaves n) ++ flat_map block_own_spans (node_blocks false n)) ->
    fst p <= snd q -> exists s, slice src (fst p) (snd q) = Some s).
  { assert (G : forall r, In r (flat_map leaf_spans (node_leaves n) ++ flat_map block_own_spans (node_blocks false n)) -> bnd src (fst r) /\ bnd src (snd r)).
    { intros r Hr. assert (V : valid_span src r). { apply in_app_iff in Hr. rewrite Forall_forall in H1, H2. destruct Hr as [Hr|Hr]; [apply H1, Hr | apply H2, Hr]. }
      destruct V as ((a & b & E1 & Ea) & (a' & b' & E2 & Ea') & _). split; [exists a, b; auto | exists a', b'; auto]. }
    intros p q Hp Hq Hl. apply slice_some; [apply G, Hp | apply G, Hq | exact Hl]. }
  destruct n as [l|t|c|b|t|t|t|l]; cbn [node_end node_start] in *; try discriminate E.
  - injection E as <-. destruct (S (tx_span t) (tx_span t)) as (s & Es); [left; reflexivity | left; reflexivity | exact L |]. exists s. split; [exact Es | exact Es].
  - destruct (c_close c) as [cl|] eqn:Ec; [|discriminate E]. injection E as <-. destruct (S (c_open c) cl) as (s & Es); [| |exact L|].
    + destruct c. cbn in Ec |- *. left. reflexivity.
    + destruct c. cbn in Ec |- *. right. rewrite Ec. left. reflexivity.
    + exists s. split; [exact Es|]. cbn [node_str]. unfold call_str. rewrite Ec. exact Es.
  - destruct (b_close b) as [cl|] eqn:Ec; [|discriminate E]. destruct (unterminated src cl); [discriminate E|]. injection E as <-. destruct (S (b_open b) cl) as (s & Es); [| |exact L|].
    + destruct b. cbn in Ec |- *. apply in_app_iff. right. left. reflexivity.
    + destruct b as [ns rw op cl0 cc cs ln]. cbn in Ec. subst cl0. cbn [node_blocks block_blocks node_leaves block_leaves flat_map block_own_spans fst snd b_open b_call b_close opt_list]. apply in_app_iff. right. right. apply in_app_iff. left. apply in_app_iff. right. left. reflexivity.
    + exists s. split; [exact Es|]. cbn [node_str]. unfold block_str. rewrite Ec. exact Es.
  - injection E as <-. destruct (S (tb_open t) (tb_close t)) as (s & Es); [right; left; reflexivity | right; right; left; reflexivity | exact L |]. exists s. split; [exact Es | exact Es].
  - injection E as <-. destruct (S (tb_open t) (tb_close t)) as (s & Es); [right; left; reflexivity | right; right; left; reflexivity | exact L |]. exists s. split; [exact Es | exact Es].
  - injection E as <-. destruct (S (tb_open t) (tb_close t)) as (s & Es); [right; left; reflexivity | right; right; left; reflexivity | exact L |]. exists s. split; [exact Es | exact Es].
  - destruct (lk_close l) as [cl|] eqn:Ec; [|discriminate E]. injection E as <-. destruct (S (lk_open l) cl) as (s & Es); [| |exact L|].
    + cbn. left. reflexivity.
    + cbn. rewrite Ec. right. left. reflexivity.
    + exists s. split; [exact Es|]. cbn [node_str]. unfold link_str, link_close_end. rewrite Ec. exact Es.
Qed.
Lemma pieces src : forall ns p q a, Forall (fun n => node_end src n <> None) ns ->
  Forall (fun n => Forall (valid_span src) (flat_map leaf_spans (node_leaves n) ++ flat_map block_own_spans (node_blocks false n))) ns ->
  nodes_tile src p q ns -> slice src 0 p = Some a -> exists l, Forall2 (fun n s => node_str src n = Some s) ns l /\ slice src 0 q = Some (a ++ concat l).
Proof.
  induction ns as [|n ns IH]; intros p q a He Hv Ht Ha; cbn [nodes_tile] in Ht.
  - subst q. exists []. split; [constructor|]. cbn. rewrite app_nil_r. exact Ha.
  - apply Forall_cons_iff in He, Hv. destruct He as [E1 E2], Hv as [V1 V2], Ht as [<- Ht]. destruct (node_end src n) as [e|] eqn:En; [|contradiction E1; reflexivity]. destruct Ht as [L Ht].
    destruct (piece src n e V1 En ltac:(lia)) as (s & Hs & Hs'). destruct (IH e q (a ++ s) E2 V2 Ht) as (l & Hl & Hq); [exact (slice_app _ _ _ _ _ _ Ha Hs)|].
    exists (s :: l). split; [constructor; assumption|]. rewrite Hq. cbn [concat]. rewrite app_assoc. reflexivity.
Qed.
Theorem C63_nodes_are_pieces : forall env o src ns fs, compile env o src = POk (NDoc ns) fs -> Forall (fun n => node_end src n <> None) ns ->
  exists l rest, Forall2 (fun n s => node_str src n = Some s) ns l /\ src = concat l ++ rest
    /\ (rest = [] \/ exists toks t, lex src = Some toks /\ In t toks /\ t_start t = blen (concat l)
          /\ (t_kind t = TBlock BStartBlockScope \/ t_kind t = TBlock BEndRawBlock \/ kind_mode (t_kind t) <> MBlock)).
Proof.
  intros env o src ns fs H He. destruct (compile_spans _ _ _ _ _ H) as [Hs _]. destruct (compile_tiles _ _ _ _ _ H) as (q & Ht & Hq).
  destruct (pieces src ns 0 q [] He) as (l & Hl & Hsl).
  - unfold tree_spans in Hs. cbn [node_leaves node_blocks] in Hs. clear - Hs. apply Forall_app in Hs. destruct Hs as [H1 H2]. apply Forall_flat_map in H1, H2. apply Forall_forall. intros n Hn.
    rewrite Forall_forall in H1, H2. apply Forall_app. split; apply Forall_flat_map, Forall_forall; intros x Hx; [apply H1 | apply H2]; apply in_flat_map; exists n; auto.
  - exact Ht.
  - destruct src; reflexivity.
  - cbn [app] in Hsl. destruct (slice_inv _ _ _ _ Hsl) as (p & r & E & Ep & Eq). assert (p = []) as -> by (destruct p as [|c p]; [reflexivity|]; cbn in Ep; pose proof (clen_pos c); lia). cbn in E, Eq.
    exists l, r. split; [exact Hl|]. split; [exact E|]. destruct Hq as [Hq|(toks & t & Hlx & Hin & Hst & Hk)].
    + left. rewrite E, blen_app in Hq. destruct r as [|c r]; [reflexivity|]. cbn [blen] in Hq. pose proof (clen_pos c). lia.
    + right. exists toks, t. rewrite <- Eq. auto.
Qed.

(** For documents of the grammar: the source text of each node is the item it came from; what it displays is that text, except for
    blocks, which display only what their bodies do. *)
Lemma str_ok ly pe src n i : node_is ly pe src n i -> exists u, node_str src n = Some u /\ item_writes ly i u.
Proof.
  intros H. destruct H as [t s Ht|c tr m p x u H1 H2 H3 H4 H5| |t s H1 H2|t s H1 H2|t s H1 H2|l esc parts Hl|b x m s m' t u H1 H2 H3 H4 H5 H6 H7 H8 H9|b p x m body bs m' u H1 H2 H3 H4 H5 H6 H7 H8];
    try (eexists; split; [eassumption|first [assumption|constructor]]).
  destruct Hl as (_ & Hl & _). eexists. split; [exact Hl|constructor].
Qed.
Fixpoint display_ok pe src n i (H : node_is Tight pe src n i) {struct H} : node_display src n = Some (displayed i).
Proof.
  pose proof (str_ok _ _ _ _ _ H) as (u' & Eu & Hu). apply (item_tight (S (length u'))) in Hu; [|lia].
  destruct H as [t s Ht|c tr m p x u H1 H2 H3 H4 H5| |t s H1 H2|t s H1 H2|t s H1 H2|l esc parts Hl|b x m s m' t u H1 H2 H3 H4 H5 H6 H7 H8 H9|b p x m body bs m' u H1 H2 H3 H4 H5 H6 H7 H8];
    try (subst u'; exact Eu).
  - cbn [node_display displayed]. rewrite H3. cbn [node_display node_str]. rewrite H4, app_nil_r. reflexivity.
  - cbn [node_display displayed]. clear - H3 display_ok. revert body H3. generalize (b_nodes b). clear b. intros ns body H3.
    induction H3 as [|n i ns body Hn _ IH]; [reflexivity|]. rewrite (display_ok _ _ _ _ Hn), IH. reflexivity.
Qed.
Theorem C63_display : forall pe o d, doc_ok pe d -> exists ns fs, compile pe o (doc_text d) = POk (NDoc ns) fs
  /\ Forall2 (fun n i => node_str (doc_text d) n = Some (item_text i) /\ node_display (doc_text d) n = Some (displayed i)) ns d.
Proof.
  intros pe o d Hd. destruct (compile_printed Tight pe o d _ Hd (doc_canon pe Tight d Hd)) as (ns & fs & E & H). exists ns, fs. split; [exact E|]. clear - H. set (src := doc_text d) in *. clearbody src.
  induction H as [|n i ns l Hn _ IH]; [constructor|]. constructor; [|exact IH]. split; [|exact (display_ok _ _ _ _ Hn)].
  destruct (str_ok _ _ _ _ _ Hn) as (u & -> & Hu). apply (item_tight (S (length u))) in Hu; [|lia]. now rewrite Hu.
Qed.
(** however a document is laid out, the source text of each node is a writing of the item it came from *)
Theorem C63_layout : forall pe o d s, doc_ok pe d -> doc_writes Loose d s -> exists ns fs, compile pe o s = POk (NDoc ns) fs
  /\ Forall2 (fun n i => exists u, node_str s n = Some u /\ item_writes Loose i u) ns d.
Proof.
  intros pe o d s Hd Hs. destruct (compile_printed Loose pe o d s Hd Hs) as (ns & fs & E & H). exists ns, fs. split; [exact E|]. clear - H. induction H as [|n i ns l Hn _ IH]; constructor; [exact (str_ok _ _ _ _ _ Hn)|exact IH].
Qed.
Theorem C63_block_free_display_partial : forall i, block_free i -> displayed i = item_text i.
Proof. intros i H. destruct i; try reflexivity; contradiction H. Qed.
(** A block does not display its tags and branches. *)
Theorem C63_block_display_refuted : exists src b fs, compile pe0 (mkOpts [] 0 0) src = POk (NDoc [NBlock b]) fs
  /\ node_str src (NBlock b) = Some src /\ node_display src (NBlock b) = Some (lit "a") /\ src = lit "{{#if x}}a{{else}}b{{/if}}".
Proof. exists (lit "{{#if x}}a{{else}}b{{/if}}"). eexists _, _. split; [vm_compute; reflexivity|]. split; [vm_compute; reflexivity|]. split; [vm_compute; reflexivity|reflexivity]. Qed.
Example C63_nonvacuous : exists t, template_compile pl0 (mkOpts [] 0 0) (lit "a {{b}}{{#if c}}d{{/if}}") = AOk t /\ template_display t = Some (lit "a {{b}}{{#if c}}d{{/if}}")
  /\ match te_node t with NDoc ns => length ns = 3 /\ Forall (fun n => node_end (te_src t) n <> None) ns | _ => False end.
Proof. eexists. split; [vm_compute; reflexivity|]. split; [vm_compute; reflexivity|]. cbn [te_node te_src]. split; [reflexivity|]. apply Forall_cons; [vm_compute; discriminate|]. apply Forall_cons; [vm_compute; discriminate|]. apply Forall_cons; [vm_compute; discriminate|]. apply Forall_nil. Qed.

Print Assumptions C63_template. Print Assumptions C63_nodes_are_pieces. Print Assumptions C63_display. Print Assumptions C63_block_free_display_partial. Print Assumptions C63_block_display_refuted.
