(** * TreeFacts: the invariant of the block stack of src/parser/mod.rs. *)
From Coq Require Import Lia String.
From Verif Require Import Str Lexer Json Ast ErrInfo Parser Spec_Lexer Spec_Ast StrFacts RegexFacts LexerFacts
  ParserFacts CallFacts ArgFacts LeafFacts.
Open Scope nat_scope. Open Scope list_scope.

(** ** Positions in the whole token stream *)
Definition nlat (toks : list token) (q : nat) : nat := nlc (filter (fun t => t_start t <? q) toks).
Lemma nlc_filter_all f l : (forall t, In t l -> f t = true) -> nlc (filter f l) = nlc l.
Proof.
  induction l as [|t l IH]; intros H; simpl; [reflexivity|]. rewrite (H t) by (left; reflexivity).
  simpl. rewrite IH; [reflexivity|]. intros u Hu. apply H. right. exact Hu.
Qed.
Lemma nlc_filter_none f l : (forall t, In t l -> f t = false) -> nlc (filter f l) = 0.
Proof.
  induction l as [|t l IH]; intros H; simpl; [reflexivity|]. rewrite (H t) by (left; reflexivity).
  apply IH. intros u Hu. apply H. right. exact Hu.
Qed.
Lemma good_before src pre l : good src (pre ++ l) -> forall t, In t pre -> t_end t <= pos src l.
Proof.
  induction pre as [|u pre IH]; intros H t Hin; [destruct Hin|]. simpl in H.
  pose proof (good_cons _ _ _ H) as (Hu & Hg & Hp). destruct Hin as [<-|Hin]; [|apply IH; assumption].
  rewrite <- Hp. apply good_app in Hg. apply Hg.
Qed.
Lemma good_after src l : good src l -> forall t, In t l -> pos src l <= t_start t.
Proof.
  intros H t Hin. apply in_split in Hin. destruct Hin as (a & b & ->). apply good_app in H. apply H.
Qed.
Lemma nlat_split src pre l : good src (pre ++ l) -> nlat (pre ++ l) (pos src l) = nlc pre.
Proof.
  intros H. unfold nlat. rewrite filter_app, nlc_app, nlc_filter_all, nlc_filter_none; [lia| |].
  - intros t Hin. apply good_app in H. destruct H as [H _]. pose proof (good_after _ _ H t Hin). apply Nat.ltb_ge. lia.
  - intros t Hin. pose proof (good_before _ _ _ H t Hin). apply Nat.ltb_lt.
    assert (tok_ok src t) as (_ & _ & Hlt & _) by (eapply good_in; [exact H | apply in_or_app; left; exact Hin]). lia.
Qed.

Lemma nlc_filter_le f g l : (forall t, In t l -> f t = true -> g t = true) -> nlc (filter f l) <= nlc (filter g l).
Proof.
  induction l as [|t l IH]; intros H; [reflexivity|].
  assert (IH' := IH (fun u Hu => H u (or_intror Hu))). specialize (H t (or_introl eq_refl)). simpl.
  destruct (f t), (g t); simpl; try lia; discriminate (H eq_refl).
Qed.
Lemma nlat_mono toks p q : p <= q -> nlat toks p <= nlat toks q.
Proof.
  intros H. apply nlc_filter_le. intros t _ Ht. apply Nat.ltb_lt in Ht. apply Nat.ltb_lt. lia.
Qed.
Lemma nlat_tok src toks u : good src toks -> In u toks -> nl1 u = 0 -> nlat toks (t_end u) = nlat toks (t_start u).
Proof.
  intros Hg Hin Hu. apply in_split in Hin. destruct Hin as (a & b & ->).
  pose proof (nlat_split src a (u :: b) Hg) as H1. pose proof (nlat_split src (a ++ [u]) b) as H2.
  rewrite <- app_assoc in H2. simpl in H2. specialize (H2 Hg).
  pose proof (good_app _ _ _ Hg) as [Hg' _]. apply good_cons in Hg'. destruct Hg' as (_ & _ & Hp). rewrite Hp in H2.
  simpl in H1. rewrite H1, H2, nlc_app. simpl. lia.
Qed.

(** the rest [l] of the stream [toks] has been reached with line counter [line] *)
Definition at_ (toks : list token) (base : nat) (l : list token) (line : nat) : Prop :=
  exists pre, toks = pre ++ l /\ line <= base + nlc pre /\ (clean toks -> line = base + nlc pre).
Lemma at_steps toks base l line l' line' : at_ toks base l line -> steps l line l' line' -> at_ toks base l' line'.
Proof.
  intros (p & -> & H1 & H2) (q & -> & H3 & H4). exists (p ++ q). rewrite nlc_app.
  split; [rewrite app_assoc; reflexivity|].
  split; [lia|]. intros C. pose proof C as C'. apply clean_app in C'. destruct C' as [_ C'].
  apply clean_app in C'. rewrite (H4 (proj1 C')), (H2 C). lia.
Qed.
Lemma at_line src toks base l line : good src toks -> at_ toks base l line -> clean toks ->
  line = base + nlat toks (pos src l).
Proof. intros Hg (p & -> & _ & H) C. rewrite (nlat_split _ _ _ Hg). apply H, C. Qed.
Lemma at_good src toks base l line : good src toks -> at_ toks base l line -> good src l.
Proof. intros Hg (p & -> & _). apply good_app in Hg. apply Hg. Qed.

(** consecutive tokens: the second is read in the mode the first one switches to *)
Definition chain (l : list token) : Prop :=
  forall a t u b, l = a ++ t :: u :: b -> kind_mode (t_kind u) = next_mode (t_kind t).
Lemma chain_suffix a l : chain (a ++ l) -> chain l.
Proof. intros H b t u c ->. apply (H (a ++ b) t u c). rewrite <- app_assoc. reflexivity. Qed.
Lemma tokenizes_chain m p s l : tokenizes m p s l -> chain l.
Proof.
  induction 1 as [m p|m p w rest k l Hn Ht IH]; intros a t u b E.
  - destruct a; discriminate.
  - destruct a as [|x a]; simpl in E; injection E as <- ->.
    + simpl. inversion Ht as [|? ? ? ? ? ? Hn2]; subst. simpl. eapply next_token_kind, Hn2.
    + apply (IH a t u b). reflexivity.
Qed.
(** the first token that is not text after a text token is not a newline *)
Lemma chain_text : forall pre t u l, chain (t :: pre ++ u :: l) -> is_text (t_kind t) = true ->
  Forall (fun v => is_text (t_kind v) = true) pre -> is_text (t_kind u) = false -> nl1 u = 0.
Proof.
  assert (H1 : forall t u, is_text (t_kind t) = true -> kind_mode (t_kind u) = next_mode (t_kind t) ->
     is_text (t_kind u) = false -> nl1 u = 0).
  { intros t u Ht Hk Hu. unfold nl1.
    destruct (t_kind t) as [b|q|q|q|k|q|q|q|q]; try discriminate Ht;
      try (destruct b; try discriminate Ht); try (destruct q; try discriminate Ht);
      destruct (t_kind u) as [b'|q'|q'|q'|k'|q'|q'|q'|q']; try discriminate Hk;
      try (destruct b'; try discriminate Hu; reflexivity); destruct q'; try discriminate Hu; reflexivity. }
  induction pre as [|v pre IH]; intros t u l Hc Ht Hf Hu.
  - apply (H1 t u Ht); [|exact Hu]. apply (Hc [] t u l). reflexivity.
  - inversion Hf; subst. apply (IH v u l); try assumption. apply (chain_suffix [t]). exact Hc.
Qed.

(** ** Good trees *)
Section Good.
Context (src : str) (toks : list token) (base : nat).

Definition line_fact (n : node) : Prop :=
  clean toks ->
  match n with
  | NText t => base + nlat toks (fst (tx_span t)) <= fst (tx_line t) <= base + nlat toks (fst (tx_span t) + 1)
  | _ => fst (node_lines n) = base + nlat toks (node_start n)
  end
  /\ forall e, node_end src n = Some e -> snd (node_lines n) = base + nlat toks e + 1.
(** a span that is exactly an opening token *)
Definition opener (sp : span) : Prop :=
  exists t, In t toks /\ tspan t = sp /\ kind_mode (t_kind t) = MBlock /\ is_text (t_kind t) = false.
Definition lead_fact (n : node) : Prop :=
  match n with
  | NStmt c => opener (c_open c)
  | NRawStmt t | NRawComment t | NComment t => opener (tb_open t)
  | NLink l => (exists t, In t toks /\ tspan t = lk_open l /\ t_kind t = TBlock BStartLink) /\ lk_close l <> None
  | _ => True
  end.
Definition leaf_good (lo hi : nat) (n : node) : Prop :=
  sps src lo hi (leaf_spans n) /\ Forall tag_ok (leaf_tags n) /\ line_fact n /\ lead_fact n.

Definition same_name (b : block) : Prop :=
  exists name cl, b_close b = Some cl
    /\ tag_named src toks BStartBlockScope (fst (b_open b)) name
    /\ tag_named src toks BEndBlockScope (fst cl) name.
(** for raw blocks: the closing tag, read as a call, has a target with the same text *)
Definition same_raw_name (b : block) : Prop :=
  exists name cl, b_close b = Some cl /\ target_str src (c_target (b_call b)) = Some name
    /\ exists cx l1 o st e st', px_src cx = src /\ toks = l1 ++ o :: p_toks st /\ t_kind o = TBlock BEndRawBlock
       /\ t_start o = fst cl /\ call_parse cx (tspan o) st = POk e st' /\ target_str src (c_target e) = Some name
       /\ option_map snd (c_close e) = Some (snd cl).
Definition block_fact (b : block) : Prop :=
  line_fact (NBlock b)
  /\ if b_raw b then raw_children b /\ same_raw_name b
     else same_name b /\ exists items, block_children src b items.
Definition block_good (lo hi : nat) (fb : bool * block) : Prop :=
  sps src lo hi (block_own_spans fb)
  /\ Forall tag_ok (tag_pair (b_open (snd fb)) (b_close (snd fb)) ++ call_tags (b_call (snd fb)))
  /\ (fst fb = false -> block_fact (snd fb))
  /\ opener (b_open (snd fb)) /\ (fst fb = true -> b_raw (snd fb) = false)
  /\ (forall cl, b_close (snd fb) = Some cl -> fst cl <= snd cl <= hi).
Definition node_good (lo hi : nat) (n : node) : Prop :=
  Forall (leaf_good lo hi) (node_leaves n) /\ Forall (block_good lo hi) (node_blocks false n).

Lemma leaf_good_mono lo hi lo' hi' n : lo' <= lo -> hi <= hi' -> leaf_good lo hi n -> leaf_good lo' hi' n.
Proof. intros H1 H2 (H3 & H4). split; [eapply sps_mono; eassumption | exact H4]. Qed.
Lemma block_good_mono lo hi lo' hi' n : lo' <= lo -> hi <= hi' -> block_good lo hi n -> block_good lo' hi' n.
Proof.
  intros H1 H2 (H3 & H4 & H5 & H6 & H6' & H7). split; [eapply sps_mono; eassumption|]. repeat (split; [assumption|]). intros cl E. specialize (H7 cl E). lia.
Qed.
Lemma node_good_mono lo hi lo' hi' n : lo' <= lo -> hi <= hi' -> node_good lo hi n -> node_good lo' hi' n.
Proof.
  intros H1 H2 [H3 H4]. split; eapply Forall_impl; try eassumption; intros x; [apply leaf_good_mono | apply block_good_mono]; assumption.
Qed.
Lemma Forall_flat_map {A B} (P : B -> Prop) (f : A -> list B) l :
  Forall P (flat_map f l) <-> Forall (fun x => Forall P (f x)) l.
Proof.
  induction l as [|x l IH]; simpl; [split; constructor|]. rewrite Forall_app, Forall_cons_iff, IH. reflexivity.
Qed.

(** ** The else branches *)
Lemma split_else_snoc x items : split_else (items ++ [x]) =
  (let (body, brs) := split_else items in
   if is_else x then (body, brs ++ [(x, [])])
   else match rev brs with
        | [] => (body ++ [x], [])
        | (y, l) :: r => (body, rev r ++ [(y, l ++ [x])])
        end).
Proof.
  induction items as [|y items IH]; simpl.
  - destruct (is_else x); reflexivity.
  - rewrite IH. destruct (split_else items) as [body brs].
    destruct (is_else x) eqn:Ex.
    + destruct (is_else y); reflexivity.
    + destruct (rev brs) as [|[z l] r] eqn:Er.
      * assert (brs = []) as -> by (rewrite <- (rev_involutive brs), Er; reflexivity).
        destruct (is_else y); reflexivity.
      * assert (brs = rev r ++ [(z, l)]) as -> by (rewrite <- (rev_involutive brs), Er; reflexivity).
        destruct (is_else y); [|simpl; rewrite rev_app_distr, rev_involutive; reflexivity].
        simpl. rewrite rev_app_distr, rev_involutive. simpl. rewrite rev_app_distr. reflexivity.
Qed.
Lemma split_else_forall (Q : node -> Prop) items : Forall Q items ->
  Forall Q (fst (split_else items))
  /\ Forall (fun br => Q (fst br) /\ is_else (fst br) = true /\ Forall Q (snd br)) (snd (split_else items)).
Proof.
  induction 1 as [|x l Hx Hl IH]; simpl; [split; constructor|].
  destruct (split_else l) as [body brs]. simpl in IH. destruct IH as [H1 H2].
  destruct (is_else x) eqn:Ex; simpl; (split; [try constructor; assumption|]); try assumption.
  constructor; [repeat split; assumption | assumption].
Qed.

Lemma map_last_block_snoc f l b : map_last_block f (l ++ [NBlock b]) = l ++ [NBlock (f b)].
Proof.
  induction l as [|x l IH]; [reflexivity|]. simpl. rewrite IH.
  destruct x; try reflexivity. destruct l; reflexivity.
Qed.
Lemma plain_last l : Forall is_plain_branch l -> l = [] \/ exists l' b, l = l' ++ [NBlock b].
Proof.
  intros H. destruct l as [|x l] using rev_ind; [left; reflexivity | right].
  apply Forall_app in H. destruct H as [_ H]. inversion H as [|? ? Hx _]; subst.
  destruct x; try contradiction. eexists _, _. reflexivity.
Qed.

(** what is known of an else branch while its block is open; the position [q] is where the parser is *)
Definition cond_inv (q : nat) (n : node) : Prop :=
  match n with
  | NBlock b => snd (b_open b) < q /\ (forall cl, b_close b = Some cl -> snd (b_open b) <= fst cl /\ fst cl <= snd cl <= q)
  | _ => False
  end.
Lemma cond_inv_mono q q' n : q <= q' -> cond_inv q n -> cond_inv q' n.
Proof. intros H. destruct n; simpl; try tauto. intros [H1 H2]. split; [lia|]. intros cl E. specialize (H2 cl E). lia. Qed.

(** an open block whose tag starts at [p], with everything up to [q] inside it *)
Definition open_inv (p q : nat) (name : str) (b : block) : Prop :=
  b_raw b = false /\ b_close b = None /\ fst (b_open b) = p
  /\ tag_named src toks BStartBlockScope p name
  /\ (clean toks -> fst (b_line b) = base + nlat toks p)
  /\ exists items s,
     (b_nodes b, map branch_view (b_conds b)) = split_else items
     /\ Forall is_plain_branch (b_conds b) /\ Forall (cond_inv q) (b_conds b)
     /\ match c_close (b_call b) with Some e => s = snd e | None => snd (b_open b) <= s end
     /\ nodes_tile src s q items /\ Forall (node_good p q) items
     /\ p < s /\ s <= q /\ call_ok src p s (b_call b) /\ sp_in src p s (b_open b) /\ opener (b_open b).

Lemma nodes_tile_snoc n q : forall items s p,
  nodes_tile src s p items -> node_start n = p -> p < q -> (forall e, node_end src n = Some e -> e = q) ->
  nodes_tile src s q (items ++ [n]).
Proof.
  assert (Hn : forall p, node_start n = p -> p < q -> (forall e, node_end src n = Some e -> e = q) -> nodes_tile src p q [n]).
  { intros p H1 H2 H3. simpl. split; [exact H1|]. destruct (node_end src n) as [e|].
    - rewrite (H3 e eq_refl). split; [exact H2 | reflexivity].
    - exists q. split; [exact H2 | reflexivity]. }
  induction items as [|x items IH]; intros s p H H1 H2 H3; [simpl in H; subst s; apply Hn; assumption|].
  simpl in H |- *. destruct H as [Hs H]. split; [exact Hs|]. destruct (node_end src x) as [e|].
  - destruct H as [H4 H5]. split; [exact H4 | eapply IH; eassumption].
  - destruct H as (e & H4 & H5). exists e. split; [exact H4 | eapply IH; eassumption].
Qed.

(** attaching a finished child *)
Lemma open_inv_attach p q q' name b n line : open_inv p q name b -> node_good q q' n -> node_start n = q -> q < q' ->
  (forall e, node_end src n = Some e -> e = q') ->
  (forall c, n = NStmt c -> c_conditional c = true -> snd (c_open c) < q') ->
  open_inv p q' name (attach n line b).
Proof.
  intros (H1 & H2 & H3 & H4 & H5 & items & s & I1 & I2 & I3 & I4 & I5 & I6 & I7 & I8 & I9 & I10 & I11) Hg Hs Hq He Hc.
  destruct b as [nodes raw open close c conds ln]. cbn [b_raw b_close b_open b_line b_nodes b_conds b_call] in *.
  subst raw close.
  assert (J3 : Forall (cond_inv q') conds) by (eapply Forall_impl; [|exact I3]; intros x; apply cond_inv_mono; lia).
  assert (J5 : nodes_tile src s q' (items ++ [n])) by (eapply nodes_tile_snoc; eassumption).
  assert (J6 : Forall (node_good p q') (items ++ [n])).
  { apply Forall_app. split.
    - eapply Forall_impl; [|exact I6]. intros x. apply node_good_mono; lia.
    - constructor; [|constructor]. eapply node_good_mono; [| |exact Hg]; lia. }
  pose proof (split_else_snoc n items) as Hsp. rewrite <- I1 in Hsp.
  (* pushing a node that is no else statement *)
  assert (Hpush : is_else n = false -> open_inv p q' name (block_push n (mkBlock nodes false open None c conds ln))).
  { intros En. rewrite En in Hsp. unfold block_push. cbn [b_conds].
    destruct (plain_last conds I2) as [->|(conds' & bb & ->)].
    - simpl in Hsp. unfold block_push_raw.
      repeat (split; [try reflexivity; assumption|]). exists (items ++ [n]), s.
      cbn [b_nodes b_conds b_call b_open]. split; [symmetry; exact Hsp|].
      split; [constructor|]. split; [constructor|]. repeat (split; [try assumption; lia|]). assumption.
    - rewrite map_app, rev_app_distr in Hsp. simpl in Hsp. rewrite rev_involutive in Hsp.
      assert (Em : match conds' ++ [NBlock bb] with [] => block_push_raw n (mkBlock nodes false open None c (conds' ++ [NBlock bb]) ln)
         | _ => block_map_last_cond (block_push_raw n) (mkBlock nodes false open None c (conds' ++ [NBlock bb]) ln) end
         = mkBlock nodes false open None c (conds' ++ [NBlock (block_push_raw n bb)]) ln).
      { simpl. rewrite map_last_block_snoc. destruct conds'; reflexivity. }
      rewrite Em. repeat (split; [try reflexivity; assumption|]). exists (items ++ [n]), s.
      cbn [b_nodes b_conds b_call b_open].
      apply Forall_app in I2. destruct I2 as [I2 I2']. inversion I2' as [|? ? P1 _]; subst.
      apply Forall_app in J3. destruct J3 as [J3 J3']. inversion J3' as [|? ? P2 _]; subst.
      destruct bb as [nb rb ob cb cb' kb lb]. cbn [block_push_raw].
      split; [rewrite map_app; symmetry; exact Hsp|].
      split; [apply Forall_app; split; [exact I2 | constructor; [exact P1 | constructor]]|].
      split; [apply Forall_app; split; [exact J3 | constructor; [exact P2 | constructor]]|].
      repeat (split; [try assumption; lia|]). assumption. }
  destruct n as [l|t|sc|bl|t|t|t|lk]; cbn [attach]; try (apply Hpush; reflexivity).
  destruct (c_conditional sc) eqn:Ek; [|apply Hpush; exact Ek].
  simpl is_else in Hsp. rewrite Ek in Hsp. specialize (Hc sc eq_refl Ek).
  set (nb := block_set_call sc (block_new (c_open sc) false line)).
  assert (Enb : branch_view (NBlock nb) = (NStmt sc, []) /\ is_plain_branch (NBlock nb) /\ cond_inv q' (NBlock nb)
     /\ c_open (b_call nb) = c_open sc).
  { unfold nb, block_new, block_set_call. simpl. repeat split; try assumption; discriminate. }
  destruct Enb as (E1 & E2 & E3 & E4). clearbody nb. unfold block_add_condition. rewrite E4. unfold block_close_condition.
  assert (Hconds : exists conds2, (if 0 <? fst (c_open sc)
        then block_map_last_cond (block_set_close (fst (c_open sc) - 1, fst (c_open sc))) (mkBlock nodes false open None c conds ln)
        else mkBlock nodes false open None c conds ln) = mkBlock nodes false open None c conds2 ln
     /\ map branch_view conds2 = map branch_view conds /\ Forall is_plain_branch conds2 /\ Forall (cond_inv q') conds2).
  { destruct (0 <? fst (c_open sc)); [|exists conds; repeat split; assumption].
    destruct (plain_last conds I2) as [->|(conds' & bb & ->)]; [exists []; repeat split; constructor|].
    cbn [block_map_last_cond]. rewrite map_last_block_snoc. eexists. split; [reflexivity|].
    apply Forall_app in I2. destruct I2 as [I2 I2']. inversion I2' as [|? ? P1 _]; subst.
    apply Forall_app in I3. destruct I3 as [I3 I3']. inversion I3' as [|? ? P2 _]; subst.
    apply Forall_app in J3. destruct J3 as [J3 J3'].
    destruct bb as [nb' rb ob cb cb' kb lb]. cbn [block_set_close].
    rewrite !map_app. split; [reflexivity|].
    split; [apply Forall_app; split; [exact I2 | constructor; [exact P1 | constructor]]|].
    apply Forall_app; split; [exact J3 | constructor; [|constructor]].
    cbn [cond_inv b_open b_close] in P2 |- *. destruct P2 as [P2 _]. split; [exact (Nat.lt_trans _ _ _ P2 Hq)|].
    intros cl Ecl. injection Ecl as <-. cbn [fst snd node_start] in P2, Hq |- *. clear -P2 Hq. lia. }
  destruct Hconds as (conds2 & -> & Q1 & Q2 & Q3).
  repeat (split; [try reflexivity; assumption|]). exists (items ++ [NStmt sc]), s.
  cbn [b_nodes b_conds b_call b_open].
  split; [rewrite map_app, Q1; cbn [map]; rewrite E1; symmetry; exact Hsp|].
  split; [apply Forall_app; split; [exact Q2 | constructor; [exact E2 | constructor]]|].
  split; [apply Forall_app; split; [exact Q3 | constructor; [exact E3 | constructor]]|].
  repeat (split; [try assumption; lia|]). assumption.
Qed.

(** closing a block: its close tag is [cl], the text after it starts at [hi] *)
Lemma open_inv_close p q name b cl hi line : good src toks -> open_inv p q name b ->
  valid_span src cl -> fst cl = q -> snd cl <= hi -> (unterminated src cl = false -> snd cl = hi) -> tag_named src toks BEndBlockScope q name ->
  (clean toks -> line = base + nlat toks hi) ->
  let n := NBlock (block_lines_end line (block_exit cl b)) in
  node_good p hi n /\ node_start n = p /\ (forall e, node_end src n = Some e -> e = hi).
Proof.
  intros Hgood (H1 & H2 & H3 & H4 & H5 & items & s & I1 & I2 & I3 & I4 & I5 & I6 & I7 & I8 & I9 & I10 & I11) Vc Hq Hh0 Hh Hn Hl n.
  destruct b as [nodes raw open close c conds ln]. cbn [b_raw b_close b_open b_line b_nodes b_conds b_call] in *.
  subst raw close.
  assert (Hqh : q <= hi) by (destruct Vc as (_ & _ & V3); rewrite <- Hq; exact (Nat.le_trans _ _ _ V3 Hh0)).
  assert (Hconds : exists conds2, n = NBlock (mkBlock nodes false open (Some cl) c conds2 (fst ln, line + 1))
     /\ map branch_view conds2 = map branch_view conds /\ Forall is_plain_branch conds2
     /\ Forall (fun x => exists b, x = NBlock b /\ forall cl', b_close b = Some cl' -> snd (b_open b) <= fst cl' /\ fst cl' <= snd cl' <= hi) conds2).
  { unfold n, block_exit. cbn [block_map_last_cond].
    assert (Hw : Forall (fun x => exists b, x = NBlock b /\ forall cl', b_close b = Some cl' -> snd (b_open b) <= fst cl' /\ fst cl' <= snd cl' <= hi) conds).
    { eapply Forall_impl; [|exact I3]. intros x. destruct x; simpl; try contradiction. intros [_ H]. eexists. split; [reflexivity | intros cl0 E0; specialize (H cl0 E0); lia]. }
    destruct (plain_last conds I2) as [->|(conds' & bb & ->)]; [exists []; repeat split; constructor|].
    rewrite map_last_block_snoc. exists (conds' ++ [NBlock (block_set_close cl bb)]). split; [reflexivity|].
    apply Forall_app in I2. destruct I2 as [I2 I2']. inversion I2' as [|? ? P1 _]; subst.
    apply Forall_app in I3. destruct I3 as [I3 I3']. inversion I3' as [|? ? P2 _]; subst.
    apply Forall_app in Hw. destruct Hw as [Hw _].
    destruct bb as [nb' rb ob cb cb' kb lb]. cbn [block_set_close].
    rewrite !map_app. split; [reflexivity|].
    split; [apply Forall_app; split; [exact I2 | constructor; [exact P1 | constructor]]|].
    apply Forall_app; split; [exact Hw | constructor; [|constructor]].
    eexists. split; [reflexivity|]. simpl in P2 |- *. intros cl' Ecl. injection Ecl as <-. destruct P2 as [P2 _]. destruct Vc as (_ & _ & V3). lia. }
  destruct Hconds as (conds2 & -> & Q1 & Q2 & Q3). rewrite <- Q1 in I1.
  destruct (split_else_forall (node_good p hi) items) as [F1 F2].
  { eapply Forall_impl; [|exact I6]. intros x. apply node_good_mono; lia. }
  rewrite <- I1 in F1, F2. cbn [fst snd] in F1, F2.
  assert (Hcall : call_ok src p hi c) by (eapply call_ok_mono; [| |exact I9]; lia).
  assert (Hopen : sp_in src p hi open) by (eapply sp_in_mono; [| |exact I10]; lia).
  assert (Hb : Forall (fun x => Forall (leaf_good p hi) (node_leaves x) /\ Forall (block_good p hi) (node_blocks true x)) conds2).
  { rewrite Forall_map in F2. rewrite Forall_forall in F2, Q2, Q3 |- *. intros x Hx.
    specialize (F2 x Hx). specialize (Q2 x Hx). destruct (Q3 x Hx) as (b & -> & Hcl).
    destruct b as [nb rb ob cb cb' kb lb]. simpl in Q2, F2, Hcl. destruct Q2 as (-> & -> & ->).
    destruct F2 as ([G1 G2] & Gk & G3). simpl in G1. inversion G1 as [|? ? (L1 & L2 & L3 & L4) _]; subst. simpl in L1, L2, L4.
    cbn [node_leaves block_leaves node_blocks block_blocks]. rewrite !app_nil_r. split.
    - apply Forall_flat_map. eapply Forall_impl; [|exact G3]. intros y [Y1 Y2]. exact Y1.
    - constructor.
      + split; [|split; [|split; [discriminate|]]].
        * unfold block_own_spans. cbn [fst snd b_open b_call b_close]. rewrite app_nil_r.
          destruct cb' as [p1 k1 o1 c1 t1 a1 h1 l1]. constructor; [|exact L1]. inversion L1; subst; assumption.
        * cbn [fst snd b_open b_call b_close]. apply Forall_app. split; [|exact L2].
          destruct cb as [cl'|]; [|constructor]. constructor; [exact (proj1 (Hcl cl' eq_refl)) | constructor].
        * cbn [fst snd b_open b_close]. split; [destruct cb'; exact L4|]. split; [reflexivity|]. intros cl' E'. exact (proj2 (Hcl cl' E')).
      + apply Forall_flat_map. eapply Forall_impl; [|exact G3]. intros y [Y1 Y2]. exact Y2. }
  assert (Hend : forall e, node_end src (NBlock (mkBlock nodes false open (Some cl) c conds2 (fst ln, line + 1))) = Some e -> e = hi).
  { intros e. cbn [node_end b_close]. destruct (unterminated src cl); [discriminate|]. intros E. injection E as <-. apply Hh. reflexivity. }
  split; [|split; [exact H3 | exact Hend]].
  split.
  - cbn [node_leaves block_leaves]. apply Forall_app. split; apply Forall_flat_map.
    + eapply Forall_impl; [|exact F1]. intros y [Y1 Y2]. exact Y1.
    + eapply Forall_impl; [|exact Hb]. intros y [Y1 Y2]. exact Y1.
  - cbn [node_blocks block_blocks]. constructor.
    + split; [|split; [|split]].
      * unfold block_own_spans. cbn [fst snd b_open b_call b_close opt_list]. constructor; [exact Hopen|].
        apply Forall_app. split; [apply Hcall|]. constructor; [|constructor].
        split; [exact Vc|]. split; [left; lia | lia].
      * cbn [fst snd b_open b_call b_close tag_pair]. apply Forall_app. split; [|apply Hcall].
        constructor; [|constructor]. unfold tag_ok. cbn [fst snd]. rewrite Hq.
        destruct I10 as (_ & _ & U). exact (Nat.le_trans _ _ _ U I8).
      * intros _. split.
        -- intros C. split; [cbn [node_lines snd b_line node_start b_open]; rewrite H3; exact (H5 C)|]. intros e Ee. cbn [snd] in Ee. rewrite (Hend e Ee). cbn [node_lines b_line snd]. rewrite (Hl C). reflexivity.
        -- cbn [snd b_raw]. split.
           ++ exists name, cl. cbn [snd b_close b_open]. split; [reflexivity|]. rewrite H3, Hq. split; assumption.
           ++ exists items. split; [exact I1|]. split; [exact Q2|]. exists s, cl. split; [reflexivity|].
              split; [exact I4|]. rewrite Hq. exact I5.
      * cbn [fst snd b_open b_close]. split; [exact I11|]. split; [discriminate|]. intros cl' E'. injection E' as <-. split; [apply Vc | exact Hh0].
    + apply Forall_app. split; apply Forall_flat_map.
      * eapply Forall_impl; [|exact F1]. intros y [Y1 Y2]. exact Y2.
      * eapply Forall_impl; [|exact Hb]. intros y [Y1 Y2]. exact Y2.
Qed.

(** the stack of open blocks covers the source from [p0] to [q] *)
Fixpoint sinv (p0 q : nat) (stk : list (str * block)) : Prop :=
  match stk with
  | [] => p0 = q
  | (name, b) :: stk' => exists p, open_inv p q name b /\ sinv p0 p stk'
  end.
End Good.
