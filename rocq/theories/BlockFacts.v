(** * BlockFacts: proofs about src/parser/{block,mod}.rs: the main loop of the parser. *)
From Coq Require Import Lia String.
From Verif Require Import Str Lexer Json Ast ErrInfo Parser Spec_Lexer Spec_Ast StrFacts RegexFacts LexerFacts
  ParserFacts CallFacts ArgFacts LeafFacts TreeFacts.
Open Scope nat_scope. Open Scope list_scope.

(** a leaf construct that starts at the token [t] and is followed by [st'] *)
Definition leaf_res (src : str) (toks : list token) (base : nat) (t : token) (n : node) (st' : pst) : Prop :=
  at_ toks base (p_toks st') (p_line st')
  /\ node_good src toks base (t_start t) (pos src (p_toks st')) n
  /\ node_start n = t_start t /\ t_start t < pos src (p_toks st')
  /\ (forall e, node_end src n = Some e -> e = pos src (p_toks st'))
  /\ (forall c, n = NStmt c -> c_conditional c = true -> snd (c_open c) < pos src (p_toks st')).

(** the state while the token [t] is being processed *)
Definition here (src : str) (toks : list token) (base : nat) (t : token) (st : pst) : Prop :=
  good src toks /\ chain toks
  /\ exists pre, toks = pre ++ t :: p_toks st /\ p_line st <= base + nlc (pre ++ [t])
       /\ (clean toks -> p_line st = base + nlc (pre ++ [t])).
Lemma here_at src toks base t st : here src toks base t st -> at_ toks base (p_toks st) (p_line st).
Proof.
  intros (_ & _ & pre & -> & H1 & H2). exists (pre ++ [t]). split; [rewrite <- app_assoc; reflexivity|].
  split; assumption.
Qed.
Lemma here_good src toks base t st : here src toks base t st -> good src (t :: p_toks st).
Proof. intros (H & _ & pre & -> & _). apply good_app in H. apply H. Qed.
Lemma here_facts src toks base t st : here src toks base t st ->
  tok_ok src t /\ good src (p_toks st) /\ pos src (p_toks st) = t_end t /\ t_start t < t_end t
  /\ sp_in src (t_start t) (t_end t) (tspan t).
Proof.
  intros H. apply here_good in H. apply good_cons in H. destruct H as (H1 & H2 & H3).
  assert (t_start t < t_end t) by apply H1. repeat (split; [assumption|]). apply sp_in_tok; [exact H1|lia|lia].
Qed.
Lemma here_line src toks base t st : here src toks base t st -> is_newline (t_kind t) = false -> clean toks ->
  p_line st = base + nlat toks (t_start t).
Proof.
  intros (Hg & _ & pre & E & _ & H) Hn C. rewrite (H C), nlc_app. simpl. unfold nl1. rewrite Hn.
  pose proof (nlat_split src pre (t :: p_toks st)) as Hs. rewrite <- E in Hs. simpl in Hs. rewrite (Hs Hg). lia.
Qed.
Lemma sp_in_tok' src toks base t st : here src toks base t st -> sp_in src (t_start t) (pos src (p_toks st)) (tspan t).
Proof. intros H. apply here_facts in H. destruct H as (_ & _ & -> & _ & H). exact H. Qed.

Definition opens (t : token) : Prop := kind_mode (t_kind t) = MBlock /\ is_text (t_kind t) = false.
Lemma here_opener src toks base t st : here src toks base t st -> opens t -> opener toks (tspan t).
Proof.
  intros (_ & _ & pre & E & _) [H1 H2]. exists t. split; [rewrite E; apply in_elt|]. split; [reflexivity|]. split; assumption.
Qed.

(** ** Statements *)
Lemma stmt_post cx toks base t st : let src := px_src cx in
  here src toks base t st -> opens t -> is_newline (t_kind t) = false ->
  ppost (fun c st' => leaf_res src toks base t (NStmt c) st')
        (esuf (p_toks st)) (call_parse cx (tspan t) st).
Proof.
  intros src Hh Hop Hn. pose proof (here_facts _ _ _ _ _ Hh) as (Ht & Hg & Hp & Hlt & _).
  eapply ppost_mono; [apply (call_parse_post cx (t_start t) (tspan t) st)| |].
  - exact Hg.
  - eapply sp_in_tok', Hh.
  - fold src. lia.
  - intros c st' (H1 & (H2 & H2') & H3 & H4 & H5 & H6). fold src in H2, H2'.
    assert (Ha : at_ toks base (p_toks st') (p_line st')) by (eapply at_steps; [eapply here_at, Hh | exact H1]).
    destruct Hh as (Hgt & Hch & Hrest).
    pose proof (conj Hgt (conj Hch Hrest) : here src toks base t st) as Hh.
    pose proof (steps_good src _ _ _ _ H1 Hg) as [Hg' Hp'].
    split; [exact Ha|]. split; [|split; [|split; [|split]]].
    + split; [|constructor]. constructor; [|constructor]. split; [apply H2|]. split; [apply H2|].
      split; [|cbn [lead_fact]; rewrite H3; eapply here_opener; eassumption].
      intros C. cbn [node_lines node_start node_end]. rewrite H6, H3. cbn [fst snd tspan]. split.
      * apply (here_line src toks base t st Hh Hn C).
      * intros e He. destruct (c_close c) as [cl|]; [|discriminate]. simpl in He. injection He as <-.
        rewrite (H2' _ eq_refl), (at_line src _ _ _ _ Hgt Ha C). reflexivity.
    + cbn [node_start]. rewrite H3. reflexivity.
    + lia.
    + intros e He. cbn [node_end] in He. destruct (c_close c) as [cl|]; [|discriminate]. simpl in He. injection He as <-.
      apply H2'. reflexivity.
    + intros c' Hc Hk. injection Hc as <-. rewrite H3. cbn [tspan snd]. specialize (H5 Hk).
      destruct H1 as (pre & E & _). rewrite E in H5, Hg, Hp.
      destruct pre as [|u pre]; [simpl in H5; lia|]. simpl in Hp. rewrite <- Hp.
      pose proof (good_cons src u (pre ++ p_toks st') Hg) as (Hu & Hgu & Hpu). apply good_app in Hgu. destruct Hgu as [_ Hgu].
      assert (Hlu : t_start u < t_end u) by apply Hu. rewrite Hpu in Hgu. exact (Nat.lt_le_trans _ _ _ Hlu Hgu).
  - intros s Hs. exact Hs.
Qed.

(** ** Links *)
Lemma link_post cx toks base t st : let src := px_src cx in
  here src toks base t st -> t_kind t = TBlock BStartLink -> is_newline (t_kind t) = false ->
  ppost (fun l st' => leaf_res src toks base t (NLink l) st')
        (esuf (p_toks st)) (link_parse cx (tspan t) st).
Proof.
  intros src Hh Hop Hn. pose proof (here_facts _ _ _ _ _ Hh) as (Ht & Hg & Hp & Hlt & _).
  eapply ppost_mono; [apply (link_parse_post cx (t_start t) (tspan t) st)| |].
  - exact Hg.
  - eapply sp_in_tok', Hh.
  - symmetry. exact Hp.
  - apply le_n.
  - intros l st' (H1 & H2 & H3 & H4 & H5). fold src in H2, H4.
    assert (Ha : at_ toks base (p_toks st') (p_line st')) by (eapply at_steps; [eapply here_at, Hh | exact H1]).
    pose proof (steps_good src _ _ _ _ H1 Hg) as [Hg' Hp'].
    split; [exact Ha|]. split; [|split; [|split; [|split]]].
    + split; [|constructor]. constructor; [|constructor]. split; [apply H2|]. split; [apply H2|].
      split; [|cbn [lead_fact]; rewrite H3; split; [|intros E0; rewrite E0 in H4; discriminate];
        destruct Hh as (_ & _ & z & Ez & _); exists t; split; [rewrite Ez; apply in_elt | split; [reflexivity | exact Hop]]].
      intros C. cbn [node_lines node_start node_end]. rewrite H5, H3. cbn [fst snd tspan]. split.
      * apply (here_line src toks base t st Hh Hn C).
      * intros e He. rewrite H4 in He. injection He as <-. rewrite (at_line src _ _ _ _ (proj1 Hh) Ha C). reflexivity.
    + cbn [node_start]. rewrite H3. reflexivity.
    + lia.
    + intros e He. cbn [node_end] in He. rewrite H4 in He. injection He as <-. reflexivity.
    + discriminate.
  - intros s Hs. exact Hs.
Qed.

(** ** Comments and escaped statements *)
Lemma at_mid toks base l line pre t l' line' : at_ toks base l line -> l = pre ++ t :: l' ->
  line' = line + nlc pre + nl1 t -> at_ toks base l' line'.
Proof.
  intros Ha -> ->. eapply at_steps; [exact Ha|]. exists (pre ++ [t]). rewrite <- app_assoc, nlc_app. simpl.
  split; [reflexivity|]. split; [lia|]. intros _. lia.
Qed.
Lemma text_block_post src toks base t st stop (wrap : text_block -> node) :
  (wrap = NRawStmt \/ wrap = NRawComment \/ wrap = NComment) ->
  here src toks base t st -> opens t -> is_newline (t_kind t) = false ->
  match text_until stop (tspan t) st with
  | (Some (tb, u), st') => leaf_res src toks base t (wrap tb) st'
  | (None, st') => esuf (p_toks st) st'
  end.
Proof.
  intros Hw Hh Hop Hn. pose proof (here_facts _ _ _ _ _ Hh) as (Ht & Hg & Hp & Hlt & Hsp).
  pose proof (text_until_post src stop (tspan t) st Hg (eq_sym Hp)) as H.
  destruct (text_until stop (tspan t) st) as [[[tb u]|] st']; [|exact H].
  destruct H as (H1 & (pre & E & H2 & H3) & H4 & H5 & H6 & H7).
  assert (Ha : at_ toks base (p_toks st') (p_line st')) by (eapply at_mid; [eapply here_at, Hh | exact E | exact H3]).
  pose proof Hg as Hg0. rewrite E in Hg0. pose proof (good_app _ _ _ Hg0) as [Hgu Hpu]. simpl in Hpu.
  rewrite <- E, Hp in Hpu. pose proof (good_cons _ _ _ Hgu) as (Hu & Hg' & Hp').
  assert (Hltu : t_start u < t_end u) by apply Hu.
  assert (Hleaf : sps src (t_start t) (pos src (p_toks st')) (text_block_spans tb) /\ Forall tag_ok [(tb_open tb, tb_close tb)]).
  { unfold text_block_spans. rewrite H4, H5, H6, Hp'. split.
    - constructor; [|constructor; [|constructor; [|constructor]]].
      + split; [|split; [left; simpl; lia | simpl; lia]]. repeat split; simpl; [apply Ht | apply Hu | lia].
      + eapply sp_in_mono; [apply le_n| |exact Hsp]. lia.
      + apply sp_in_tok; [exact Hu | lia | lia].
    - constructor; [|constructor]. unfold tag_ok. simpl. lia. }
  assert (Hlines : clean toks -> fst (tx_line (tb_text tb)) = base + nlat toks (t_start t)
     /\ snd (tx_line (tb_text tb)) = base + nlat toks (pos src (p_toks st')) + 1).
  { intros C. rewrite H7. cbn [fst snd]. split; [apply (here_line src toks base t st Hh Hn C)|].
    rewrite (at_line src _ _ _ _ (proj1 Hh) Ha C). reflexivity. }
  split; [exact Ha|].
  destruct Hw as [->|[->| ->]];
    (split; [split; [constructor; [|constructor] | constructor] |
             cbn [node_start node_end]; rewrite ?H5, ?H6; split; [reflexivity|]; split; [lia|];
             split; [intros e He; injection He as <-; rewrite Hp'; reflexivity | discriminate]]);
    (split; [apply Hleaf|]; split; [apply Hleaf|]; split; [|cbn [lead_fact]; rewrite H5; eapply here_opener; eassumption]; intros C; destruct (Hlines C) as [L1 L2];
     cbn [node_lines node_start node_end]; rewrite H5; split; [exact L1|];
     intros e He; injection He as <-; rewrite H6; cbn [tspan snd]; rewrite <- Hp'; exact L2).
Qed.

(** ** Raw blocks *)
Lemma raw_block_post cx toks base t st : let src := px_src cx in
  here src toks base t st -> opens t -> is_newline (t_kind t) = false ->
  ppost (fun n st' => leaf_res src toks base t n st') (esuf (p_toks st)) (raw_block cx (tspan t) st).
Proof.
  intros src Hh Hop Hn. pose proof (here_facts _ _ _ _ _ Hh) as (Ht & Hg & Hp & Hlt & Hsp). fold src in Ht, Hg, Hp, Hsp.
  unfold raw_block. cbv zeta.
  eapply ppost_bind; [apply (call_parse_post cx (t_start t) (tspan t) st Hg)|].
  - eapply sp_in_tok', Hh.
  - fold src. lia.
  - intros c s1 (H1 & (H2 & H2') & H3 & H4 & H5 & H6). fold src in H2, H2'.
    pose proof (steps_good src _ _ _ _ H1 Hg) as [Hg1 Hp1].
    assert (He1 : esuf (p_toks st) s1) by (destruct H1 as (pre & E & _); exists pre; exact E).
    destruct (c_close c) as [ce|] eqn:Ece; [|apply ppost_perr; exact He1].
    assert (Hts : exists on, target_str src (c_target c) = Some on).
    { destruct c as [p k o cl tg a h l]. apply call_ok_unfold in H2. destruct H2 as (_ & _ & [T1 T2] & _).
      cbn [c_target]. destruct tg as [pp|cc]; cbn [target_str].
      - inversion T1; subst. eapply sp_in_slice. eassumption.
      - destruct cc as [p' k' o' cl' tg' a' h' l']. assert (Hcc : call_ok src (t_start t) (pos src (p_toks s1)) (mkCall p' k' o' cl' tg' a' h' l')) by (split; assumption).
        apply call_ok_unfold in Hcc. destruct Hcc as (C1 & C2 & _). unfold call_str. cbn [c_close c_open].
        destruct cl' as [cl'|]; [|eapply sp_in_slice; exact C1].
        destruct C2 as [((V1 & V2 & V3) & _) C2]. destruct C1 as ((W1 & W2 & W3) & _).
        apply slice_some; try assumption. unfold tag_ok in C2. simpl in C2.
        exact (Nat.le_trans _ _ _ (Nat.le_trans _ _ _ W3 C2) V3). }
    destruct Hts as (on & Hon). fold src. rewrite Hon. cbn [pslice].
    pose proof (text_until_post src is_end_raw_block ce s1 Hg1 (H2' _ eq_refl)) as Htu.
    destruct (text_until is_end_raw_block ce s1) as [[[tb u]|] s2]; [|apply ppost_perr; eapply steps_esuf; [exact H1 | exact Htu]].
    destruct Htu as (U1 & (pre & E & U2 & U3) & U4 & U5 & U6 & U7).
    assert (Ha1 : at_ toks base (p_toks s1) (p_line s1)) by (eapply at_steps; [eapply here_at, Hh | exact H1]).
    assert (Ha2 : at_ toks base (p_toks s2) (p_line s2)) by (eapply at_mid; [exact Ha1 | exact E | exact U3]).
    pose proof Hg1 as Hg1'. rewrite E in Hg1'. pose proof (good_app _ _ _ Hg1') as [Hgu Hpu]. simpl in Hpu. rewrite <- E in Hpu.
    pose proof (good_cons _ _ _ Hgu) as (Hu & Hg2 & Hp2). assert (Hltu : t_start u < t_end u) by apply Hu.
    assert (Huk : t_kind u = TBlock BEndRawBlock).
    { unfold is_end_raw_block in U1. destruct (t_kind u) as [b| | | | | | | |]; try discriminate U1. destruct b; try discriminate U1. reflexivity. }
    assert (He2 : forall s, esuf (p_toks s2) s -> esuf (p_toks st) s).
    { intros s (z & Ez). eapply steps_esuf; [exact H1|]. rewrite E, Ez. exists (pre ++ u :: z). rewrite <- app_assoc. reflexivity. }
    pose proof (call_parse_post cx (t_start u) (tspan u) s2 Hg2) as Hcp.
    destruct (call_parse cx (tspan u) s2) as [e s3|er s3|pn|] eqn:Ecp; cbn [pbind].
    + destruct Hcp as (K1 & (K2 & K2') & K3 & K4 & K5 & K6).
      { fold src. rewrite Hp2. apply sp_in_tok; [exact Hu | lia | lia]. }
      { fold src. lia. }
      fold src in K2, K2'.
      pose proof (steps_good src _ _ _ _ K1 Hg2) as [Hg3 Hp3].
      assert (He3 : esuf (p_toks st) s3) by (apply He2; destruct K1 as (z & Ez & _); exists z; exact Ez).
      destruct (c_close e) as [cl|] eqn:Ecl; [|apply ppost_perr; exact He3].
      assert (Hte : exists en, target_str src (c_target e) = Some en).
      { destruct e as [p k o cl0 tg a h l]. apply call_ok_unfold in K2. destruct K2 as (_ & _ & [T1 T2] & _).
        cbn [c_target]. destruct tg as [pp|cc]; cbn [target_str].
        - inversion T1; subst. eapply sp_in_slice. eassumption.
        - destruct cc as [p' k' o' cl' tg' a' h' l']. assert (Hcc : call_ok src (t_start u) (pos src (p_toks s3)) (mkCall p' k' o' cl' tg' a' h' l')) by (split; assumption).
          apply call_ok_unfold in Hcc. destruct Hcc as (C1 & C2 & _). unfold call_str. cbn [c_close c_open].
          destruct cl' as [cl'|]; [|eapply sp_in_slice; exact C1].
          destruct C2 as [((V1 & V2 & V3) & _) C2]. destruct C1 as ((W1 & W2 & W3) & _).
          apply slice_some; try assumption. unfold tag_ok in C2. simpl in C2.
          exact (Nat.le_trans _ _ _ (Nat.le_trans _ _ _ W3 C2) V3). }
      destruct Hte as (en & Hen). fold src. rewrite Hen. cbn [pslice].
      destruct (streq on en) eqn:Eq; [|apply ppost_perr_n; exact He3]. apply streq_eq in Eq. subst en.
      assert (Ha3 : at_ toks base (p_toks s3) (p_line s3)) by (eapply at_steps; [exact Ha2 | exact K1]).
      assert (Vcl : valid_span src cl /\ snd (tspan u) <= fst cl /\ snd cl = pos src (p_toks s3)).
      { split; [|split; [|apply K2'; reflexivity]].
        - destruct e as [p k o cl0 tg a h l]. simpl in Ecl. subst cl0. apply call_ok_unfold in K2. apply K2.
        - destruct e as [p k o cl0 tg a h l]. simpl in Ecl, K3. subst cl0 o. apply call_ok_unfold in K2.
          destruct K2 as (_ & [_ K2] & _). exact K2. }
      destruct Vcl as (Vcl & Vle & Vend).
      assert (Hce : snd ce <= t_start u) by (rewrite (H2' _ eq_refl); exact Hpu).
      assert (Hcle : fst cl <= snd cl) by apply Vcl. cbn [tspan snd] in Vle.
      cbn [ppost]. split; [exact Ha3|].
      unfold block_push, block_new, block_set_call, block_exit, block_set_close, block_push_raw. cbn [b_conds block_map_last_cond map_last_block block_lines_end].
      rewrite K3. cbn [tspan fst].
      assert (Hlt3 : t_start t < pos src (p_toks s3)) by (fold src in Hp1, Hp3; lia).
      split; [|split; [reflexivity|split; [exact Hlt3|split; [|discriminate]]]].
      2:{ intros x Ex. cbn [node_end b_close] in Ex. destruct (unterminated src _); [discriminate|]. injection Ex as <-. exact Vend. }
      split.
      * cbn [node_leaves block_leaves flat_map app]. constructor; [|constructor]. split; [|split; [constructor|split; [|exact I]]].
        -- cbn [leaf_spans]. constructor; [|constructor]. rewrite U4. repeat split; cbn [fst snd].
           ++ rewrite (H2' _ eq_refl). apply good_pos_bnd, Hg1.
           ++ apply Hu.
           ++ exact Hce.
           ++ left. rewrite (H2' _ eq_refl). fold src in Hp1. lia.
           ++ fold src in Hp3. lia.
        -- intros C. cbn [node_lines node_end]. rewrite U7, U4. cbn [fst snd].
           assert (L1 := at_line src _ _ _ _ (proj1 Hh) Ha1 C). assert (L2 := at_line src _ _ _ _ (proj1 Hh) Ha2 C).
           rewrite L1, L2, (H2' _ eq_refl). split; [split; [apply le_n|]|].
           ++ apply Nat.add_le_mono_l, nlat_mono. lia.
           ++ intros x Ex. injection Ex as <-. f_equal. f_equal. rewrite Hp2. apply (nlat_tok src toks u (proj1 Hh)).
              ** destruct Ha1 as (z & Ez & _). rewrite Ez, E. apply in_or_app. right. apply in_elt.
              ** unfold nl1. rewrite Huk. reflexivity.
      * cbn [node_blocks block_blocks flat_map app]. constructor; [|constructor]. split; [|split; [|split]].
        -- unfold block_own_spans. cbn [fst snd b_open b_call b_close opt_list].
           constructor; [eapply sp_in_mono; [apply le_n| |exact Hsp]; fold src in Hp1, Hp3; lia|].
           apply Forall_app. split.
           ++ eapply sps_mono; [apply le_n| |apply H2]. fold src in Hp3. lia.
           ++ constructor; [|constructor]. split; [|split; [left; simpl; lia | simpl; lia]].
              repeat split; cbn [fst snd]; [apply Hu | apply Vcl | lia].
        -- cbn [fst snd b_open b_call b_close tag_pair]. apply Forall_app. split; [|apply H2].
           constructor; [|constructor]. unfold tag_ok. cbn [fst snd tspan]. fold src in Hp1. lia.
        -- intros _. split.
           ++ intros C. cbn [node_lines b_line node_start node_end b_open b_close snd fst line_range].
              split; [apply (here_line src toks base t st Hh Hn C)|]. intros x Ex. destruct (unterminated src _); [discriminate|]. injection Ex as <-.
              rewrite (at_line src _ _ _ _ (proj1 Hh) Ha3 C), Vend. reflexivity.
           ++ cbn [snd b_raw]. split.
              ** exists (tb_text tb), ce, (t_start u, snd cl). cbn [b_nodes b_conds b_call b_close].
                 repeat split; try assumption.
              ** destruct Ha1 as (z & Ez & _). rewrite E in Ez.
                 exists on, (t_start u, snd cl). cbn [b_call b_close]. split; [reflexivity|]. split; [exact Hon|].
                 exists cx, (z ++ pre), u, s2, e, s3. split; [reflexivity|].
                 split; [rewrite Ez, <- app_assoc; reflexivity|]. split; [exact Huk|]. split; [reflexivity|].
                 split; [exact Ecp|]. split; [exact Hen|]. rewrite Ecl. reflexivity.
        -- cbn [fst snd b_open b_close]. split; [eapply here_opener; eassumption|]. split; [discriminate|]. intros cl' E'. injection E' as <-. cbn [fst snd]. lia.
    + apply He2. apply Hcp; fold src; [rewrite Hp2; apply sp_in_tok; [exact Hu | lia | lia] | lia].
    + apply Hcp; fold src; [rewrite Hp2; apply sp_in_tok; [exact Hu | lia | lia] | lia].
    + apply Hcp; fold src; [rewrite Hp2; apply sp_in_tok; [exact Hu | lia | lia] | lia].
Qed.

(** ** The main loop *)
Lemma ppost_lift {A} (Q : A -> fstate -> Prop) (E : fstate -> Prop) m stk nx :
  ppost (fun a s => Q a (mkF s stk nx)) (fun s => E (mkF s stk nx)) m -> ppost Q E (lift m stk nx).
Proof. destruct m; exact (fun H => H). Qed.

Definition frest (fs : fstate) : list token := full (f_next fs) (p_toks (f_p fs)).
Definition slashed (src : str) (toks : list token) : Prop :=
  forall t, In t toks -> t_kind t = TBlock BEndBlockScope -> unterminated src (tspan t) = true.

(** result of [advance] and [block_loop] started at byte [p] with stack [stk] *)
Definition adv_res (src : str) (toks : list token) (base p : nat) (stk : list (str * block)) (m : nat)
    (r : option node) (fs' : fstate) : Prop :=
  match r with
  | None => True
  | Some n =>
      at_ toks base (frest fs') (p_line (f_p fs')) /\ length (frest fs') <= m
      /\ forall p0, sinv src toks base p0 p stk ->
           sinv src toks base p0 (node_start n) (f_stack fs')
           /\ node_good src toks base (node_start n) (pos src (frest fs')) n
           /\ node_start n < pos src (frest fs')
           /\ (forall e, node_end src n = Some e -> e = pos src (frest fs'))
           /\ (forall c, n = NStmt c -> c_conditional c = true -> snd (c_open c) < pos src (frest fs'))
  end.
Definition ferr (l : list token) (fs' : fstate) : Prop := esuf l (f_p fs').

Lemma leaf_adv src toks base t n st' stk m : leaf_res src toks base t n st' -> length (p_toks st') <= m ->
  adv_res src toks base (t_start t) stk m (Some n) (mkF st' stk None).
Proof.
  intros (H1 & H2 & H3 & H4 & H5 & H6) Hm. split; [exact H1|]. split; [exact Hm|]. intros p0 Hs.
  rewrite H3. repeat (split; [assumption|]). exact H6.
Qed.

(** a named call gives a named tag *)
Lemma named_tag src toks k t l l' p comp name pre : toks = pre ++ t :: l -> t_kind t = TBlock k ->
  named l l' p -> path_is_simple p = true -> pa_comps p = comp :: [] -> comp_str src comp = Some name ->
  tag_named src toks k (t_start t) name.
Proof.
  intros E Hk Hn Hs Hc Hname. destruct (Hn Hs) as (mid & u & rest & comp' & E' & H1 & H2 & H3 & H4).
  rewrite Hc in H3. injection H3 as <-. exists pre, t, mid, u, (rest ++ l'). rewrite E, E'.
  split; [reflexivity|]. split; [exact Hk|]. split; [reflexivity|]. split; [exact H1|].
  split; [exact H2|]. unfold comp_str, sl in Hname. rewrite H4 in Hname. exact Hname.
Qed.

Lemma block_name_simple src b name : block_name src b = Some (Some name) ->
  exists p comp, c_target (b_call b) = TPath p /\ path_is_simple p = true /\ pa_comps p = [comp]
    /\ comp_str src comp = Some name.
Proof.
  unfold block_name. destruct (c_target (b_call b)) as [p|]; [|discriminate].
  destruct (path_is_simple p) eqn:Es; [|discriminate]. pose proof Es as Es'. unfold path_is_simple in Es'.
  destruct (pa_comps p) as [|comp [|]] eqn:Ec; try discriminate. destruct (comp_str src comp) as [s|] eqn:E; [|discriminate].
  intros H. injection H as ->. exists p, comp. repeat split; assumption.
Qed.
Lemma block_name_total src lo hi b : call_ok src lo hi (b_call b) -> block_name src b <> None.
Proof.
  intros H. unfold block_name. destruct (b_call b) as [p k o cl tg a h l]. apply call_ok_unfold in H.
  destruct H as (_ & _ & [H _] & _). cbn [c_target]. destruct tg as [pp|]; [|discriminate].
  destruct (path_is_simple pp) eqn:Es; [|discriminate]. unfold path_is_simple in Es.
  destruct (pa_comps pp) as [|comp l'] eqn:Ec; [discriminate|].
  simpl in H. unfold path_spans in H. rewrite Ec in H. inversion H as [|? ? _ H2]; subst. inversion H2 as [|? ? H3 _]; subst.
  destruct (sp_in_slice _ _ _ _ H3) as (v & Hv). unfold comp_str. rewrite Hv. discriminate.
Qed.

Lemma scope_post cx toks base t st : let src := px_src cx in
  here src toks base t st ->
  ppost (fun b st' => exists c, b = block_set_call c (block_new (tspan t) false (line_range st))
                        /\ cp_post src (t_start t) (tspan t) (p_toks st) (p_line st) c st')
        (esuf (p_toks st)) (scope cx (tspan t) st).
Proof.
  intros src Hh. pose proof (here_facts _ _ _ _ _ Hh) as (Ht & Hg & Hp & Hlt & _).
  unfold scope. cbv zeta. eapply ppost_bind; [apply (call_parse_post cx (t_start t) (tspan t) st Hg)|].
  - eapply sp_in_tok', Hh.
  - fold src in Hp |- *. lia.
  - intros c s H. exists c. split; [reflexivity | exact H].
Qed.

Lemma scope_open cx toks base t st c st' name : let src := px_src cx in
  here src toks base t st -> t_kind t = TBlock BStartBlockScope ->
  cp_post src (t_start t) (tspan t) (p_toks st) (p_line st) c st' ->
  block_name src (block_set_call c (block_new (tspan t) false (line_range st))) = Some (Some name) ->
  open_inv src toks base (t_start t) (pos src (p_toks st')) name
    (block_set_call c (block_new (tspan t) false (line_range st))).
Proof.
  intros src Hh Hk (H1 & (H2 & H2') & H3 & H4 & H5 & H6) Hn.
  pose proof (here_facts _ _ _ _ _ Hh) as (Ht & Hg & Hp & Hlt & Hsp).
  pose proof (steps_good src _ _ _ _ H1 Hg) as [Hg' Hp'].
  apply block_name_simple in Hn. destruct Hn as (p & comp & E1 & E2 & E3 & E4).
  unfold block_new, block_set_call in *. cbn [b_call] in E1.
  split; [reflexivity|]. split; [reflexivity|]. split; [reflexivity|]. split; [|split].
  - destruct Hh as (_ & _ & pre & E & _). rewrite E1 in H4. eapply named_tag; eassumption.
  - intros C. cbn [b_line fst line_range]. apply (here_line src toks base t st Hh); [rewrite Hk; reflexivity | exact C].
  - exists [], (pos src (p_toks st')). cbn [b_nodes b_conds b_call b_open]. split; [reflexivity|].
    split; [constructor|]. split; [constructor|]. split; [|split; [reflexivity|]].
    + destruct (c_close c) as [cl|]; [symmetry; apply H2'; reflexivity|]. cbn [tspan snd]. lia.
    + split; [constructor|]. split; [lia|]. split; [lia|]. split; [exact H2|].
    split; [|eapply here_opener; [exact Hh | split; rewrite Hk; reflexivity]].
      eapply sp_in_mono; [apply le_n| |exact Hsp]. lia.
Qed.

Lemma advance_eq fuel cx t fs : advance (S fuel) cx t fs =
      let k := t_kind t in
      let st := if is_newline k then inc_line (f_p fs) else f_p fs in
      let stk := f_stack fs in
      let nx := f_next fs in
      if is_text k then
        let lr := line_range st in
        let '(sp, next, st) := until (fun k => negb (is_text k)) (tspan t) (p_toks st) (p_line st) (p_byte st) in
        POk (Some (NText (mkText sp (fst lr, p_line st + 1)))) (mkF st stk next)
      else
        match k with
        | TBlock BStartRawBlock =>
            let! (n, fs) := lift (raw_block cx (tspan t) st) stk nx in POk (Some n) fs
        | TBlock BStartRawComment =>
            let! (n, fs) := lift (raw_comment cx (tspan t) st) stk nx in POk (Some n) fs
        | TBlock BStartRawStatement =>
            let! (n, fs) := lift (raw_statement cx (tspan t) st) stk nx in POk (Some n) fs
        | TBlock BStartComment =>
            let! (n, fs) := lift (comment cx (tspan t) st) stk nx in POk (Some n) fs
        | TBlock BStartBlockScope =>
            let! (b, fs) := lift (scope cx (tspan t) st) stk nx in
            match block_name (px_src cx) b with
            | None => PPanic PanSlice
            | Some None =>
                lift (perr cx SBlockName (set_byte (fst (target_span (c_target (b_call b)))) (f_p fs))) stk nx
            | Some (Some name) =>
                match c_target (b_call b) with
                | TSub _ =>
                    if c_partial (b_call b)
                    then block_loop fuel cx (mkF (f_p fs) ((name, b) :: stk) nx)
                    else lift (perr cx SBlockTargetSubExpr (f_p fs)) stk nx
                | TPath _ => block_loop fuel cx (mkF (f_p fs) ((name, b) :: stk) nx)
                end
            end
        | TBlock BEndBlockScope =>
            let! (temp, fs) := lift (scope cx (tspan t) st) stk nx in
            match block_name (px_src cx) temp with
            | None => PPanic PanSlice
            | Some close_name =>
                match stk with
                | [] =>
                    let notes := match close_name with
                                 | Some c => [lit "perhaps open the block '" ++ c ++ lit "'"]
                                 | None => []
                                 end in
                    lift (perr_n cx SBlockNotOpen notes (set_byte (t_start t) (f_p fs))) stk nx
                | (open_name, b) :: stk' =>
                    match close_name with
                    | Some close_name =>
                        if streq open_name close_name then
                          let sp := if call_is_closed (b_call temp)
                                    then (t_start t, snd (call_span (b_call temp)))
                                    else tspan t in
                          let b := block_lines_end (p_line (f_p fs)) (block_exit sp b) in
                          POk (Some (NBlock b)) (mkF (f_p fs) stk' nx)
                        else
                          lift (perr_n cx STagNameMismatch [lit "opening name is '" ++ open_name ++ lit "'"] (f_p fs))
                               stk' nx
                    | None => lift (perr cx SExpectedIdentifier (f_p fs)) stk' nx
                    end
                end
            end
        | TBlock BStartStatement =>
            let! (c, fs) := lift (call_parse cx (tspan t) st) stk nx in POk (Some (NStmt c)) fs
        | TBlock BStartLink =>
            let! (l, fs) := lift (link_parse cx (tspan t) st) stk nx in POk (Some (NLink l)) fs
        | _ => POk None (mkF st stk nx)
        end.
Proof. reflexivity. Qed.
Lemma block_loop_eq fuel cx fs : block_loop (S fuel) cx fs =
  match fst (ftoken fs) with
  | None => POk None (snd (ftoken fs))
  | Some t =>
      let! (n, fs) := advance fuel cx t (snd (ftoken fs)) in
      match n with
      | None => POk None fs
      | Some node =>
          match f_stack fs with
          | [] => POk (Some node) fs
          | (name, b) :: stk =>
              block_loop fuel cx
                (mkF (f_p fs) ((name, attach node (line_range (f_p fs)) b) :: stk) (f_next fs))
          end
      end
  end.
Proof. cbn [block_loop]. destruct (ftoken fs) as [[t|] fs']; reflexivity. Qed.

Definition P_adv fuel := forall cx toks base t fs, let src := px_src cx in
  2 * length (p_toks (f_p fs)) + 2 <= fuel -> f_next fs = None ->
  good src toks -> chain toks -> slashed src toks ->
  at_ toks base (t :: p_toks (f_p fs)) (p_line (f_p fs)) ->
  ppost (adv_res src toks base (t_start t) (f_stack fs) (length (p_toks (f_p fs))))
        (ferr (p_toks (f_p fs))) (advance fuel cx t fs).
Definition P_loop fuel := forall cx toks base fs, let src := px_src cx in
  2 * length (frest fs) + 1 <= fuel ->
  good src toks -> chain toks -> slashed src toks ->
  at_ toks base (frest fs) (p_line (f_p fs)) ->
  ppost (adv_res src toks base (pos src (frest fs)) (f_stack fs) (length (frest fs)))
        (ferr (frest fs)) (block_loop fuel cx fs).

Lemma here_start src toks base t fs : good src toks -> chain toks ->
  at_ toks base (t :: p_toks (f_p fs)) (p_line (f_p fs)) ->
  here src toks base t (if is_newline (t_kind t) then inc_line (f_p fs) else f_p fs).
Proof.
  intros Hg Hc (pre & E & H1 & H2). split; [exact Hg|]. split; [exact Hc|]. exists pre. rewrite nlc_app. simpl.
  unfold nl1. destruct (is_newline (t_kind t)); simpl; (split; [exact E|]; split; [lia|]; intros C; specialize (H2 C); lia).
Qed.

Lemma text_adv src toks base t st stk m : here src toks base t st -> is_text (t_kind t) = true ->
  length (p_toks st) <= m ->
  let '(sp, next, st') := until (fun k => negb (is_text k)) (tspan t) (p_toks st) (p_line st) (p_byte st) in
  adv_res src toks base (t_start t) stk m (Some (NText (mkText sp (p_line st, p_line st' + 1)))) (mkF st' stk next).
Proof.
  intros Hh Htx Hm. pose proof (here_facts _ _ _ _ _ Hh) as (Ht & Hg & Hp & Hlt & Hsp).
  pose proof (until_post src (fun k => negb (is_text k)) (p_toks st) (tspan t) (p_line st) (p_byte st) Hg (eq_sym Hp)) as H.
  destruct (until _ _ _ _ _) as [[sp next] st']. destruct H as (pre & H1 & H2 & H3). cbn [tspan fst] in H2.
  assert (Hpre : Forall (fun v => is_text (t_kind v) = true) pre).
  { eapply Forall_impl; [|exact H1]. intros v Hv. apply negb_false_iff. exact Hv. }
  assert (Hrest : exists pre', p_toks st = pre' ++ full next (p_toks st') /\ snd sp = pos src (full next (p_toks st'))
     /\ p_line st' = p_line st + nlc pre').
  { exists pre. destruct next as [u|].
    - destruct H3 as (E & Hu & H4 & H5). split; [exact E|]. split; [exact H4|].
      destruct Hh as (_ & Hc & z & Ez & _). rewrite E in Ez. rewrite Ez in Hc. apply chain_suffix in Hc.
      rewrite (chain_text pre t u _ Hc Htx Hpre) in H5; [lia|]. apply negb_true_iff. exact Hu.
    - destruct H3 as (E & H4 & H5 & H6). rewrite H4. cbn [full pos]. rewrite app_nil_r. repeat split; assumption. }
  destruct Hrest as (pre' & E & Hend & Hline).
  assert (Hst : steps (p_toks st) (p_line st) (full next (p_toks st')) (p_line st')).
  { exists pre'. split; [exact E|]. split; [lia|]. intros _. exact Hline. }
  assert (Ha : at_ toks base (full next (p_toks st')) (p_line st')) by (eapply at_steps; [eapply here_at, Hh | exact Hst]).
  pose proof (steps_good src _ _ _ _ Hst Hg) as [Hg' Hp'].
  unfold adv_res, frest. cbn [f_next f_p f_stack]. split; [exact Ha|]. split; [apply steps_len in Hst; lia|].
  intros p0 Hs. cbn [node_start tx_span]. rewrite H2. split; [exact Hs|].
  split; [|split; [lia|split; [|discriminate]]].
  - split; [|constructor]. constructor; [|constructor]. split; [|split; [constructor|split; [|exact I]]].
    + cbn [leaf_spans tx_span]. constructor; [|constructor]. destruct sp as [a b]. cbn [fst snd] in *. subst a b.
      split; [|split; [left; apply le_n | apply le_n]]. repeat split; cbn [fst snd]; [apply Ht | apply good_pos_bnd, Hg' | lia].
    + intros C. cbn [node_lines node_end tx_span tx_line fst snd].
      rewrite (at_line src _ _ _ _ (proj1 Hh) Ha C), H2. split.
      * destruct Hh as (Hgt & Hch & z & Ez & _ & Hz). rewrite (Hz C). rewrite nlc_app. simpl.
        pose proof (nlat_split src z (t :: p_toks st)) as S1. rewrite <- Ez in S1. specialize (S1 Hgt). simpl in S1. rewrite S1.
        split; [lia|]. 
        pose proof (nlat_split src (z ++ [t]) (p_toks st)) as S2. rewrite <- app_assoc in S2. simpl in S2. rewrite <- Ez in S2.
        specialize (S2 Hgt). rewrite nlc_app in S2. simpl in S2.
        assert (S3 : nlat toks (pos src (p_toks st)) = nlat toks (t_start t + 1)).
        { unfold nlat. apply Nat.le_antisymm; apply nlc_filter_le; intros v Hv Hl; apply Nat.ltb_lt in Hl; apply Nat.ltb_lt.
          - rewrite Ez in Hv. apply in_app_or in Hv. destruct Hv as [Hv|[<-|Hv]]; [| |].
            + rewrite Ez in Hgt. pose proof (good_before _ _ _ Hgt v Hv) as Hb. simpl in Hb.
              assert (t_start v < t_end v) by (eapply good_in; [exact Hgt | apply in_or_app; left; exact Hv]). lia.
            + lia.
            + pose proof (good_after _ _ Hg v Hv). lia.
          - lia. }
        rewrite S3 in S2. lia.
      * intros e He. injection He as <-. rewrite Hend. reflexivity.
  - intros e He. cbn [node_end tx_span] in He. injection He as <-. exact Hend.
Qed.

Lemma inc_or_toks t fs : p_toks (if is_newline (t_kind t) then inc_line (f_p fs) else f_p fs) = p_toks (f_p fs).
Proof. destruct (is_newline (t_kind t)); reflexivity. Qed.

Lemma app_suffix {A} (m l' : list A) : forall a pre, a ++ l' = pre ++ m -> length m <= length l' -> exists x, l' = x ++ m.
Proof.
  induction a as [|y a IH]; intros pre E H; [exists pre; exact E|].
  destruct pre as [|z pre]; simpl in E.
  - apply (f_equal (@length A)) in E. simpl in E. rewrite app_length in E. lia.
  - injection E as _ E. apply (IH pre E H).
Qed.
Lemma leaf_len src toks base t st n st' : here src toks base t st -> leaf_res src toks base t n st' ->
  length (p_toks st') <= length (p_toks st).
Proof.
  intros (Hg & _ & pre & E & _) ((a & E' & _) & _ & _ & Hlt & _).
  destruct (Nat.le_gt_cases (length (p_toks st')) (length (p_toks st))) as [H|H]; [exact H|].
  rewrite E' in E. destruct (app_suffix _ _ _ _ E) as (x & Ex); [simpl; lia|].
  rewrite E' in Hg. apply good_app in Hg. destruct Hg as [Hg _]. rewrite Ex in Hg, Hlt.
  apply good_app in Hg. destruct Hg as [_ Hg]. simpl in Hg. lia.
Qed.
Lemma adv_res_mono src toks base p stk m m' r fs : m <= m' ->
  adv_res src toks base p stk m r fs -> adv_res src toks base p stk m' r fs.
Proof. intros H. destruct r; [|exact (fun x => x)]. intros (H1 & H2 & H3). split; [exact H1|]. split; [lia | exact H3]. Qed.

Lemma adv_step fuel : P_loop fuel -> P_adv (S fuel).
Proof.
  intros IH cx toks base t fs src Hf Hnx Hg Hc Hsl Ha. rewrite advance_eq. cbv zeta.
  pose proof (here_start src toks base t fs Hg Hc Ha) as Hh.
  set (st := if is_newline (t_kind t) then inc_line (f_p fs) else f_p fs) in *.
  assert (Et : p_toks st = p_toks (f_p fs)) by apply inc_or_toks.
  rewrite Hnx. rewrite <- Et in Hf |- *. set (stk := f_stack fs). clearbody stk.
  assert (Hin : In t toks) by (destruct Ha as (z & -> & _); apply in_elt).
  clear Hnx. clearbody st. clear Ha Et fs.
  destruct (is_text (t_kind t)) eqn:Etx.
  - pose proof (text_adv src toks base t st stk (length (p_toks st)) Hh Etx (le_n _)) as H.
    destruct (until _ _ _ _ _) as [[sp next] st']. exact H.
  - pose proof (here_facts _ _ _ _ _ Hh) as (Ht & Hgs & Hp & Hlt & Hsp).
    assert (Hleaf : forall A (m : pres pst A) (w : A -> node),
       ppost (fun n st' => leaf_res src toks base t (w n) st') (esuf (p_toks st)) m ->
       ppost (adv_res src toks base (t_start t) stk (length (p_toks st))) (ferr (p_toks st))
         (let! (n, fs0) := lift m stk None in POk (Some (w n)) fs0)).
    { intros A m w H. destruct m as [n s|e s|p|]; cbn [lift pbind ppost] in *; try exact H.
      apply leaf_adv; [exact H | eapply leaf_len; eassumption]. }
    destruct (t_kind t) as [b|q|q|q|k|q|q|q|q] eqn:Ek; try exact I.
    assert (Htb : forall stop (wrap : text_block -> node) er,
       (wrap = NRawStmt \/ wrap = NRawComment \/ wrap = NComment) -> is_newline (TBlock b) = false ->
       ppost (fun n st' => leaf_res src toks base t n st') (esuf (p_toks st))
         (let (r, s) := text_until stop (tspan t) st in
          match r with Some (tb, _) => POk (wrap tb) s | None => perr cx er s end)).
    { intros stop wrap er Hw Hn. pose proof (text_block_post src toks base t st stop wrap Hw Hh) as H.
      assert (Hop : opens t) by (split; rewrite Ek; [reflexivity | exact Etx]). specialize (H Hop). rewrite Ek in H. specialize (H Hn). destruct (text_until stop (tspan t) st) as [[[tb u]|] s]; [exact H|].
      apply ppost_perr. exact H. }
    destruct b; try exact I; try discriminate Etx.
    + apply (Hleaf _ (raw_block cx (tspan t) st) (fun n => n)). apply raw_block_post; [exact Hh | split; rewrite Ek; reflexivity | rewrite Ek; reflexivity].
    + apply (Hleaf _ (raw_comment cx (tspan t) st) (fun n => n)). apply (Htb is_end_raw_comment); [tauto | reflexivity].
    + apply (Hleaf _ (raw_statement cx (tspan t) st) (fun n => n)). apply (Htb is_end_raw_statement); [tauto | reflexivity].
    + apply (Hleaf _ (comment cx (tspan t) st) (fun n => n)). apply (Htb is_end_comment); [tauto | reflexivity].
    + apply (Hleaf _ (call_parse cx (tspan t) st) NStmt). apply stmt_post; [exact Hh | split; rewrite Ek; reflexivity | rewrite Ek; reflexivity].
    + (* open a block *)
      pose proof (scope_post cx toks base t st Hh) as Hs.
      destruct (scope cx (tspan t) st) as [bl s|e s|pn|] eqn:Esc; cbn [lift pbind ppost] in *; try exact Hs.
      destruct Hs as (c & -> & Hcp). fold src in Hcp.
      pose proof Hcp as (K1 & (K2 & K2') & K3 & K4 & K5 & K6).
      set (bl := block_set_call c (block_new (tspan t) false (line_range st))) in *.
      assert (Ebc : b_call bl = c) by reflexivity.
      destruct (block_name (px_src cx) bl) as [[name|]|] eqn:Ebn.
      * destruct (block_name_simple _ _ _ Ebn) as (p & comp & Ep & _). cbn [f_p f_stack f_next]. unfold bl in Ep |- *. cbn [b_call block_set_call block_new] in Ep |- *. fold bl. rewrite Ep.
        pose proof (scope_open cx toks base t st c s name Hh Ek Hcp Ebn) as Ho. fold src in Ho. fold bl in Ho.
        assert (Has : at_ toks base (p_toks s) (p_line s)) by (eapply at_steps; [eapply here_at, Hh | exact K1]).
        pose proof (steps_len _ _ _ _ K1) as Hlen.
        specialize (IH cx toks base (mkF s ((name, bl) :: stk) None)). cbv zeta in IH.
        cbn [frest f_next f_p f_stack full] in IH. fold src in IH.
        change (frest (mkF s ((name, bl) :: stk) None)) with (p_toks s) in IH.
        eapply ppost_mono; [apply IH; try assumption; lia| |].
        -- intros r fs' Hr. destruct r as [n|]; [|exact I]. destruct Hr as (R1 & R2 & R3). split; [exact R1|]. split; [lia|].
           intros p0 Hs0. apply R3. cbn [sinv]. exists (t_start t). split; [exact Ho | exact Hs0].
        -- intros fs' He. unfold ferr in *. eapply steps_esuf; [exact K1 | exact He].
      * apply ppost_lift, ppost_perr. unfold ferr. cbn [f_p]. eapply steps_esuf; [exact K1 | exists []; reflexivity].
      * exfalso. eapply block_name_total; [|exact Ebn]. rewrite Ebc. exact K2.
    + apply (Hleaf _ (link_parse cx (tspan t) st) NLink). apply link_post; [exact Hh | exact Ek | rewrite Ek; reflexivity].
    + (* close a block *)
      pose proof (scope_post cx toks base t st Hh) as Hs.
      destruct (scope cx (tspan t) st) as [bl s|e s|pn|] eqn:Esc; cbn [lift pbind ppost] in *; try exact Hs.
      destruct Hs as (c & -> & Hcp). fold src in Hcp.
      pose proof Hcp as (K1 & (K2 & K2') & K3 & K4 & K5 & K6).
      set (bl := block_set_call c (block_new (tspan t) false (line_range st))) in *.
      assert (Ebc : b_call bl = c) by reflexivity.
      pose proof (steps_good src _ _ _ _ K1 Hgs) as [Hg' Hp'].
      assert (He : esuf (p_toks st) s) by (eapply steps_esuf; [exact K1 | exists []; reflexivity]).
      destruct (block_name (px_src cx) bl) as [cn|] eqn:Ebn.
      2:{ exfalso. eapply block_name_total; [|exact Ebn]. rewrite Ebc. exact K2. }
      destruct stk as [|[oname ob] stk].
      { apply ppost_lift, ppost_perr_n. exact He. }
      destruct cn as [cname|]; [|apply ppost_lift, ppost_perr; exact He].
      destruct (streq oname cname) eqn:Eq; [|apply ppost_lift, ppost_perr_n; exact He].
      apply streq_eq in Eq. subst cname.
      assert (Has : at_ toks base (p_toks s) (p_line s)) by (eapply at_steps; [eapply here_at, Hh | exact K1]).
      cbn [ppost]. split; [exact Has|]. split; [apply steps_len in K1; exact K1|].
      intros p0 (p & Hop & Hst). unfold frest. cbn [f_next f_p f_stack full].
      set (cl := if call_is_closed (b_call bl) then (t_start t, snd (call_span (b_call bl))) else tspan t) in *.
      assert (Hcl : valid_span src cl /\ fst cl = t_start t /\ snd cl <= pos src (p_toks s)
                    /\ (unterminated src cl = false -> snd cl = pos src (p_toks s))).
      { unfold cl. rewrite Ebc. unfold call_is_closed, call_span. destruct (c_close c) as [ce|] eqn:Ece.
        - cbn [snd fst]. rewrite (K2' ce eq_refl). split; [|split; [reflexivity|split; [apply le_n|reflexivity]]].
          repeat split; cbn [fst snd]; [apply Ht | apply good_pos_bnd, Hg' | lia].
        - split; [apply Hsp|]. split; [reflexivity|]. split; [cbn [tspan snd]; lia|].
          rewrite (Hsl t Hin Ek). discriminate. }
      destruct Hcl as (C1 & C2 & C3 & C4).
      destruct (block_name_simple _ _ _ Ebn) as (pp & comp & Ep & E2 & E3 & E4).
      rewrite Ebc in Ep. rewrite Ep in K4.
      assert (Hnamed : tag_named src toks BEndBlockScope (t_start t) oname).
      { destruct Hh as (_ & _ & z & Ez & _). eapply named_tag; eassumption. }
      destruct (open_inv_close src toks base p (t_start t) oname ob cl (pos src (p_toks s)) (p_line s) Hg Hop C1 C2 C3 C4 Hnamed) as (G1 & G2 & G3).
      { intros C. apply (at_line src toks base); assumption. }
      cbn zeta in G1, G2, G3. rewrite G2. split; [exact Hst|]. split; [exact G1|].
      split; [|split; [exact G3 | discriminate]].
      destruct Hop as (_ & _ & _ & _ & _ & items & s0 & _ & _ & _ & _ & _ & _ & H1 & H2 & _). lia.
Qed.

Lemma ftoken_rest fs : match ftoken fs with
  | (Some t, fs') => frest fs = t :: p_toks (f_p fs') /\ f_next fs' = None /\ f_stack fs' = f_stack fs
                     /\ p_line (f_p fs') = p_line (f_p fs) 
  | (None, fs') => frest fs = [] /\ fs' = fs
  end.
Proof.
  destruct fs as [[l line byte] stk [t|]]; unfold ftoken, frest; simpl; [repeat split|].
  unfold pnext. simpl. destruct l; simpl; repeat split.
Qed.

Lemma loop_step fuel : P_adv fuel -> P_loop fuel -> P_loop (S fuel).
Proof.
  intros IA IL cx toks base fs src Hf Hg Hc Hsl Ha. rewrite block_loop_eq.
  pose proof (ftoken_rest fs) as Hft. destruct (ftoken fs) as [[t|] fs1]; cbn [fst snd]; [|exact I].
  destruct Hft as (E & En & Es & El). rewrite E in Hf, Ha |- *. rewrite <- El in Ha. rewrite <- Es. simpl in Hf.
  pose proof (IA cx toks base t fs1) as Hadv. cbv zeta in Hadv. fold src in Hadv.
  eapply ppost_bind.
  - eapply ppost_mono; [apply Hadv; try assumption; lia| |].
    + intros a s H. exact H.
    + intros s H. unfold ferr in *. apply esuf_cons. exact H.
  - intros [n|] fs2 Hr; [|exact I].
    destruct Hr as (R1 & R2 & R3). cbn [pos].
    destruct (f_stack fs2) as [|[name b] stk] eqn:Estk.
    + cbn [ppost]. split; [exact R1|]. split; [simpl; lia|]. rewrite Estk. exact R3.
    + set (fs3 := mkF (f_p fs2) ((name, attach n (line_range (f_p fs2)) b) :: stk) (f_next fs2)).
      assert (Er : frest fs3 = frest fs2) by reflexivity.
      pose proof (IL cx toks base fs3) as Hl. cbv zeta in Hl. fold src in Hl. rewrite Er in Hl.
      eapply ppost_mono; [apply Hl; try assumption; lia| |].
      * intros r fs4 Hr4. destruct r as [m|]; [|exact I]. destruct Hr4 as (Q1 & Q2 & Q3).
        split; [exact Q1|]. split; [simpl; lia|]. intros p0 Hs. apply Q3. cbn [f_stack fs3 sinv].
        destruct (R3 p0 Hs) as (S1 & S2 & S3 & S4 & S5). cbn [sinv] in S1. destruct S1 as (p & O & S1).
        exists p. split; [|exact S1]. eapply open_inv_attach; try eassumption. reflexivity.
      * intros fs4 He. unfold ferr in *. destruct R1 as (a & Ea & _). destruct Ha as (a0 & Ea0 & _).
        rewrite Ea in Ea0. destruct (app_suffix (frest fs2) (p_toks (f_p fs1)) (a0 ++ [t]) a) as (x & Ex); [|exact R2|].
        { rewrite <- app_assoc. symmetry. exact Ea0. }
        rewrite Ex. apply esuf_cons, esuf_trans. exact He.
Qed.

Lemma advance_post : forall fuel, P_adv fuel /\ P_loop fuel.
Proof.
  induction fuel as [|fuel [IA IL]].
  - split.
    + intros cx toks base t fs src Hf. lia.
    + intros cx toks base fs src Hf. lia.
  - split; [apply adv_step, IL | apply loop_step; assumption].
Qed.
