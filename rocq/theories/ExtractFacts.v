(** * ExtractFacts: proofs for C83 *)
From Coq Require Import Lia String.
From Verif Require Import Str Lexer Json Ast Parser Render Helpers Registry StrFacts Spec_Lexer Spec_Values Spec_Helpers Spec_Blocks Spec_Calls Spec_Source Spec_Sem Spec_Fail Spec_Total Spec_Data Spec_Extract CycleFacts ExchangeFacts.
Open Scope nat_scope. Open Scope list_scope.

Lemma among_in l n : among l n = true -> In n l.
Proof. unfold among. rewrite existsb_exists. intros (x & Hx & E). apply streq_eq in E. now subst. Qed.
Lemma in_among l n : In n l -> among l n = true.
Proof. intros X. unfold among. apply existsb_exists. exists n. split; [exact X|apply streq_refl]. Qed.
Lemma name_text m : path_text (HdName m) [] = m.
Proof. unfold path_text. cbn. apply app_nil_r. Qed.

(** ** One more scope *)
Definition nothing : scope := mkScope (Some (JObj [])) [].
Definition again (b : json) : scope := mkScope (Some b) [].
Definition extra (g : bool) (data : json) (base : list scope) (x : scope) : Prop :=
  if g then exists b, this_is data base b /\ x = again b /\ (forall s r, base = s :: r -> sc_value s = Some b /\ forall n t v, not_local n = true -> ~ in_locals (n :: t) s v)
  else x = nothing.
Definition under (g : bool) (data : json) (k : nat) (scs scs' : list scope) : Prop := exists own base x, scs = own ++ base /\ scs' = own ++ x :: base /\ k <= length own /\ extra g data base x.
Lemma under_cons g data k sc scs scs' : under g data k scs scs' -> under g data (S k) (sc :: scs) (sc :: scs').
Proof. intros (own & base & x & -> & -> & L & X). exists (sc :: own), base, x. repeat split; [cbn; lia|exact X]. Qed.
Lemma under_one g data k sc scs scs' : under g data k scs scs' -> under g data 1 (sc :: scs) (sc :: scs').
Proof. intros (own & base & x & -> & -> & L & X). exists (sc :: own), base, x. repeat split; [cbn; lia|exact X]. Qed.
Lemma under_top g data scs x : extra g data scs x -> under g data 0 scs (x :: scs).
Proof. intros X. exists [], scs, x. repeat split; [cbn; lia|exact X]. Qed.
Lemma no_field k v : ~ has_field (JObj []) k v.
Proof. intros H. remember (JObj []) as o eqn:E. destruct H as [pre k v post Hn|]; [|discriminate E]. injection E as E. destruct pre; discriminate E. Qed.
Lemma follow_nothing k p v : ~ follow (JObj []) (k :: p) v.
Proof. intros H. inversion H as [a b c Y|a b c d e Y Z]; subst; exact (no_field _ _ Y). Qed.
Lemma nothing_has k p v : ~ scope_has (k :: p) nothing v.
Proof. intros [H|(_ & b & E & H)]; [|cbn in E; injection E as <-]; exact (follow_nothing _ _ _ H). Qed.
Lemma again_has k p b v : scope_has (k :: p) (again b) v <-> follow b (k :: p) v.
Proof.
  split.
  - intros [H|(_ & b' & E & H)]; [destruct (follow_nothing _ _ _ H)|]. cbn in E. injection E as <-. exact H.
  - intros H. right. split; [intros x; apply follow_nothing|]. exists b. split; [reflexivity|exact H].
Qed.
Lemma visible_extra g k p data base x v : implb g (not_local k) = true -> extra g data base x -> visible (k :: p) data base v <-> visible (k :: p) data (x :: base) v.
Proof.
  intros Hk X. destruct g; cbn [extra] in X.
  - destruct X as (b & T & -> & C). cbn in Hk. destruct base as [|s r].
    + inversion T; subst. split; intros H.
      * inversion H; subst. apply visible_here. now apply again_has.
      * inversion H as [|? ? ? H1|? ? ? H1 H2]; subst; [apply visible_data; now apply again_has in H1|exact H2].
    + destruct (C s r eq_refl) as (E & L). assert (S : forall y, scope_has (k :: p) s y <-> follow b (k :: p) y).
      { intros y. split; [intros [H|(_ & b' & E' & H)]; [destruct (L _ _ _ Hk H)|congruence]|intros H; right; split; [intros z; now apply L|now exists b]]. }
      split; intros H.
      * inversion H as [|? ? ? H1|? ? ? H1 H2]; subst; [apply visible_here; apply again_has; now apply S|apply visible_outer; [|exact H]]. intros y Y. apply (H1 y). apply S. now apply again_has in Y.
      * inversion H as [|? ? ? H1|? ? ? H1 H2]; subst; [|exact H2]. apply visible_here. apply S. now apply again_has in H1.
  - subst x. split; intros H; [apply visible_outer; [intros y; apply nothing_has|exact H]|]. inversion H as [|s ss u H1|s ss u H1 H2]; subst; [destruct (nothing_has _ _ _ H1)|exact H2].
Qed.
Lemma visible_under g k p data own base x v : implb g (not_local k) = true -> extra g data base x -> visible (k :: p) data (own ++ base) v <-> visible (k :: p) data (own ++ x :: base) v.
Proof.
  intros Hk X. induction own as [|s own IH]; cbn [app]; [now apply (visible_extra g)|].
  split; intros H; inversion H as [|s' ss u H1|s' ss u H1 H2]; subst; [now apply visible_here|apply visible_outer; [exact H1|now apply IH]|now apply visible_here|apply visible_outer; [exact H1|now apply IH]].
Qed.
Lemma this_one data l a b : this_is data l a -> this_is data l b -> a = b.
Proof. intros H1 H2. inversion H1; subst; inversion H2; subst; congruence. Qed.
Lemma this_under g data own base x b : g || (0 <? length own) = true -> extra g data base x -> this_is data (own ++ base) b <-> this_is data (own ++ x :: base) b.
Proof.
  intros Ho X. destruct own as [|s own]; cbn [app].
  - cbn in Ho. rewrite orb_false_r in Ho. subst g. destruct X as (b0 & T & -> & _). split; intros H; [rewrite (this_one _ _ _ _ H T); now apply this_scope|]. inversion H as [|? ? ? E|? ? E]; subst; cbn in E; [injection E as <-; exact T|discriminate E].
  - split; intros H; inversion H; subst; (now apply this_scope) || (now apply this_unset).
Qed.
Lemma level_under p data own base base' k v : k < length own -> at_level p data (own ++ base) k v -> at_level p data (own ++ base') k v.
Proof.
  intros L [(s & E & H)|(E & _)]; [left; exists s; split; [|exact H]|rewrite app_length in E; lia]. rewrite nth_error_app1 in * by lia. exact E.
Qed.
Lemma own_this g k (own : list scope) : k <= length own -> g || (0 <? k) = true -> g || (0 <? length own) = true.
Proof. intros L H. apply orb_prop in H. destruct H as [->|H]; [reflexivity|]. apply Nat.ltb_lt in H. apply orb_true_iff. right. apply Nat.ltb_lt. lia. Qed.
Lemma path_under g data k scs scs' h t v : under g data k scs scs' -> path_own g k h = true -> path_value data scs h t v <-> path_value data scs' h t v.
Proof.
  intros (own & base & x & -> & -> & L & X) Ho. destruct h as [n| |s|u n|n|n]; cbn [path_own] in Ho.
  - split; intros H; inversion H; subst; apply pv_name; now apply (visible_under g _ _ data own base x).
  - pose proof (own_this _ _ _ L Ho) as Ho'. split; intros H; inversion H as [|b Y|t0 b v0 Y F| | | | |]; subst; (apply pv_this || eapply pv_this_in); try eassumption; now apply (this_under g _ _ _ x _ Ho' X).
  - pose proof (own_this _ _ _ L Ho) as Ho'. split; intros H; inversion H as [| | |s1 t0 b v0 Y F| | | |]; subst; (eapply pv_dot; [|eassumption]); now apply (this_under g _ _ _ x _ Ho' X).
  - destruct u as [|u].
    + split; intros H; inversion H; subst; apply pv_up_none; now apply (visible_under g _ _ data own base x).
    + apply Nat.ltb_lt in Ho. split; intros H; inversion H; subst; apply pv_up; (eapply level_under; [|eassumption]; lia).
  - apply orb_prop in Ho. destruct Ho as [Ho|Ho].
    + apply streq_eq in Ho. subst n. split; intros H; inversion H; subst; try congruence; now apply pv_root.
    + apply Nat.ltb_lt in Ho. destruct own as [|s0 own]; [cbn in L; lia|]. cbn [app]. split; intros H; inversion H as [| | | | | |t0 v0 F|n0 t0 s ss v0 E N F]; subst; try (now apply pv_root); injection E as <- <-; (eapply pv_local; [reflexivity|assumption..]).
  - split; intros H; inversion H.
Qed.

Section Extract.
Variables (g : bool) (w : world) (n : str).
Hypothesis Hun : unaware_registry w.
Hypothesis Hbm : rg_block_missing (w_reg w) = None.
Hypothesis Hstd : forall m, In m block_helpers -> assoc m (rg_helpers (w_reg w)) <> None -> standard w m.
Notation iown := (item_own g (w_reg w) n).

Definition beside (act act' : list site) : Prop := (forall s, s <> SPartial n -> count_site s act' = count_site s act) /\ (forall q, q <> n -> (In (SPartial q) act' <-> In (SPartial q) act)).
Lemma count_cons s t l : count_site s (t :: l) = count_site s (t :: []) + count_site s l.
Proof. cbn [count_site]. destruct (site_eq t s); lia. Qed.
Lemma beside_cons s act act' : beside act act' -> beside (s :: act) (s :: act').
Proof.
  intros (H1 & H2). split.
  - intros t Ht. rewrite (count_cons t s act), (count_cons t s act'), H1 by exact Ht. reflexivity.
  - intros q Hq. cbn [In]. now rewrite H2.
Qed.
Lemma beside_helper act act' m : beside act act' -> count_site (SHelper m) act' = count_site (SHelper m) act.
Proof. intros (H & _). apply H. discriminate. Qed.
Lemma beside_block act act' m : beside act act' -> count_site (SBlock m) act' = count_site (SBlock m) act.
Proof. intros (H & _). apply H. discriminate. Qed.
Lemma beside_site act act' blk m : beside act act' -> count_site (site_of blk m) act' = count_site (site_of blk m) act.
Proof. intros (H & _). apply H. destruct blk; discriminate. Qed.

Lemma un_helper m f : assoc m (rg_helpers (w_reg w)) = Some f -> unaware w f.
Proof. intros X. apply Hun. left. exists m. exact X. Qed.
Lemma un_missing f : rg_missing (w_reg w) = Some f -> unaware w f.
Proof. intros X. apply Hun. right. left. exact X. Qed.
Lemma un_link f : rg_link (w_reg w) = Some f -> unaware w f.
Proof. intros X. apply Hun. right. right. exact X. Qed.
Lemma un_called scs h t m f : called w scs h t m f -> unaware w f.
Proof. intros X. destruct X as [m f _ X|m f _ _ _ X]; [eapply un_helper; exact X|now apply un_missing]. Qed.
Definition plain (p : hprog) : Prop := (exists ws v, p = writes ws v) \/ (exists s, p = halt s).
Lemma plain_ret v : plain (HRet v).
Proof. left. exists [], v. reflexivity. Qed.
Lemma plain_writes ws v : plain (writes ws v).
Proof. left. eauto. Qed.
Lemma plain_halt s : plain (halt s).
Proof. right. eauto. Qed.
Lemma plain_out s e p out : helper_out w s e p out -> plain p.
Proof. intros H. destruct H; [apply plain_ret|apply plain_writes]. Qed.

Section At.
Variables (k : nat) (scs scs' : list scope).
Hypothesis U : under g (w_data w) k scs scs'.
Lemma value_in h t v : path_own g k h = true -> path_value (w_data w) scs h t v -> path_value (w_data w) scs' h t v.
Proof. intros Ho. exact (proj1 (path_under _ _ k _ _ _ _ _ U Ho)). Qed.
Lemma no_value_in h t : path_own g k h = true -> no_value (w_data w) scs h t -> no_value (w_data w) scs' h t.
Proof. intros Ho X v Y. apply (X v). exact (proj2 (path_under _ _ k _ _ _ _ _ U Ho) Y). Qed.
Lemma called_in h t m f : path_own g k h = true -> called w scs h t m f -> called w scs' h t m f.
Proof. intros W X. destruct X as [m f Hm X|m f Hm X H1 H2]; [eapply called_helper; eassumption|eapply called_missing; try eassumption]. now apply no_value_in. Qed.
Lemma call_split h t xs hs : call_own g k (Call h t xs hs) = true -> path_own g k h = true /\ forallb (expr_own g k) xs = true /\ forallb (fun kx => expr_own g k (snd kx)) hs = true.
Proof. cbn [call_own]. intros X. apply andb_prop in X. destruct X as [X X3]. apply andb_prop in X. destruct X as [X1 X2]. auto. Qed.
Lemma values_in : forall act,
  (forall x v, arg_value w scs act x v -> forall act', beside act act' -> expr_own g k x = true -> arg_value w scs' act' x v)
  /\ (forall xs vs, args_value w scs act xs vs -> forall act', beside act act' -> forallb (expr_own g k) xs = true -> args_value w scs' act' xs vs)
  /\ (forall hs ps, hash_value w scs act hs ps -> forall act', beside act act' -> forallb (fun kx => expr_own g k (snd kx)) hs = true -> hash_value w scs' act' hs ps)
  /\ (forall c v, call_value w scs act c v -> forall act', beside act act' -> call_own g k c = true -> call_value w scs' act' c v).
Proof.
  apply (values_ex w scs (fun act x v => forall act', beside act act' -> expr_own g k x = true -> arg_value w scs' act' x v) (fun act xs vs => forall act', beside act act' -> forallb (expr_own g k) xs = true -> args_value w scs' act' xs vs)
    (fun act hs ps => forall act', beside act act' -> forallb (fun kx => expr_own g k (snd kx)) hs = true -> hash_value w scs' act' hs ps) (fun act c v => forall act', beside act act' -> call_own g k c = true -> call_value w scs' act' c v)); intros.
  1-5: constructor; assumption.
  - apply av_path. now apply value_in.
  - apply av_no_path. now apply no_value_in.
  - apply av_sub. auto.
  - apply av_no_sub. auto.
  - constructor.
  - cbn [forallb] in *. match goal with H : _ && _ = true |- _ => apply andb_prop in H; destruct H end. constructor; auto.
  - constructor.
  - cbn [forallb snd] in *. match goal with H : _ && _ = true |- _ => apply andb_prop in H; destruct H end. constructor; auto.
  - match goal with H : call_own g _ _ = true |- _ => destruct (call_split _ _ _ _ H) as (? & ? & ?) end. match goal with B : beside _ act' |- _ => pose proof (beside_cons (SHelper n0) _ _ B) end.
    eapply cv_helper; [eapply called_in; eassumption|erewrite beside_helper; eassumption|auto|auto|eassumption|]. eapply un_called; [eassumption|apply plain_ret|eassumption].
  - match goal with H : call_own g _ _ = true |- _ => destruct (call_split _ _ _ _ H) as (? & ? & ?) end. apply cv_variable; [assumption|]. now apply value_in.
  - match goal with H : call_own g _ _ = true |- _ => destruct (call_split _ _ _ _ H) as (? & ? & ?) end. apply cv_missing; [assumption| |assumption]. now apply no_value_in.
Qed.
Lemma am act act' x v : beside act act' -> arg_value w scs act x v -> expr_own g k x = true -> arg_value w scs' act' x v.
Proof. intros B X. exact (proj1 (values_in act) x v X act' B). Qed.
Lemma asm act act' xs vs : beside act act' -> args_value w scs act xs vs -> forallb (expr_own g k) xs = true -> args_value w scs' act' xs vs.
Proof. intros B X. exact (proj1 (proj2 (values_in act)) xs vs X act' B). Qed.
Lemma hm act act' hs ps : beside act act' -> hash_value w scs act hs ps -> forallb (fun kx => expr_own g k (snd kx)) hs = true -> hash_value w scs' act' hs ps.
Proof. intros B X. exact (proj1 (proj2 (proj2 (values_in act))) hs ps X act' B). Qed.
Lemma cm act act' c v : beside act act' -> call_value w scs act c v -> call_own g k c = true -> call_value w scs' act' c v.
Proof. intros B X. exact (proj2 (proj2 (proj2 (values_in act))) c v X act' B). Qed.
Lemma args_split xs hs : args_own g k xs hs = true -> forallb (expr_own g k) xs = true /\ forallb (fun kx => expr_own g k (snd kx)) hs = true.
Proof. apply andb_prop. Qed.
Lemma args_of h t xs hs : call_own g k (Call h t xs hs) = true -> args_own g k xs hs = true.
Proof. intros X. destruct (call_split _ _ _ _ X) as (_ & H1 & H2). unfold args_own. now rewrite H1, H2. Qed.
Lemma helper_in act act' blk m f xs hs text prop p : unaware w f -> plain p -> beside act act' -> args_own g k xs hs = true -> helper_call w scs act blk m f xs hs text prop p -> helper_call w scs' act' blk m f xs hs text prop p.
Proof.
  intros D Dp B W (X & vs & pairs & ps & H1 & H2 & H3 & H4). destruct (args_split _ _ W). pose proof (beside_cons (site_of blk m) _ _ B). split; [erewrite beside_site; eassumption|].
  exists vs, pairs, ps. split; [eapply asm; eassumption|]. split; [eapply hm; eassumption|]. split; [assumption|]. eapply D; eassumption.
Qed.
Lemma fails_in nm :
  (forall act x e, arg_fails w nm scs act x e -> forall act', beside act act' -> expr_own g k x = true -> arg_fails w nm scs' act' x e)
  /\ (forall act xs e, args_fail w nm scs act xs e -> forall act', beside act act' -> forallb (expr_own g k) xs = true -> args_fail w nm scs' act' xs e)
  /\ (forall act hs e, hash_fails w nm scs act hs e -> forall act', beside act act' -> forallb (fun kx => expr_own g k (snd kx)) hs = true -> hash_fails w nm scs' act' hs e)
  /\ (forall act blk m f xs hs text prop e, helper_call_fails w nm scs act blk m f xs hs text prop e -> forall act', beside act act' -> unaware w f -> args_own g k xs hs = true -> helper_call_fails w nm scs' act' blk m f xs hs text prop e)
  /\ (forall act c e, call_fails w nm scs act c e -> forall act', beside act act' -> call_own g k c = true -> call_fails w nm scs' act' c e).
Proof.
  apply fails_ex; intros.
  - constructor. auto.
  - cbn [forallb] in *. match goal with H : _ && _ = true |- _ => apply andb_prop in H; destruct H end. apply asf_here. auto.
  - cbn [forallb] in *. match goal with H : _ && _ = true |- _ => apply andb_prop in H; destruct H end. eapply asf_later; [eapply am; eassumption|auto].
  - match goal with H : forallb _ (_ ++ _) = true |- _ => rewrite forallb_app in H; cbn [forallb snd] in H; apply andb_prop in H; destruct H as [? H]; apply andb_prop in H; destruct H end. eapply hf_one; [eapply hm; eassumption|auto|eapply hm; eassumption].
  - apply hc_cycle. erewrite beside_site; eassumption.
  - apply hc_arg; [erewrite beside_site; eassumption|]. match goal with H : args_own g _ _ _ = true |- _ => destruct (args_split _ _ H) end. eauto using beside_cons.
  - match goal with H : args_own g _ _ _ = true |- _ => destruct (args_split _ _ H) end. eapply hc_hash; [erewrite beside_site; eassumption|eapply asm; [apply beside_cons|..]; eassumption|eauto using beside_cons].
  - apply hc_run. eapply helper_in; eauto using plain_halt.
  - match goal with H : call_own g _ _ = true |- _ => destruct (call_split _ _ _ _ H) as (? & ? & ?); pose proof (args_of _ _ _ _ H) end. eapply cf_helper; [apply called_in; eassumption|]. match goal with H : forall act', beside _ act' -> unaware w _ -> _ |- _ => apply H end; [assumption|eapply un_called; eassumption|assumption].
  - match goal with H : call_own g _ _ = true |- _ => destruct (call_split _ _ _ _ H) as (? & ? & ?) end. apply cf_strict; auto. now apply no_value_in.
Qed.
Definition afm nm := proj1 (fails_in nm).
Definition asfm nm := proj1 (proj2 (fails_in nm)).
Definition hfm nm := proj1 (proj2 (proj2 (fails_in nm))).
Definition hcm nm := proj1 (proj2 (proj2 (proj2 (fails_in nm)))).
Definition cfm nm := proj2 (proj2 (proj2 (proj2 (fails_in nm)))).
Lemma block_arg_in act act' m x hs v : beside act act' -> args_own g k [x] hs = true -> block_arg w scs act m x hs v -> block_arg w scs' act' m x hs v.
Proof.
  intros B A (H1 & H2 & H3 & pairs & ps & H4 & H5). destruct (args_split _ _ A) as (A1 & A2). cbn in A1. rewrite andb_true_r in A1. pose proof (beside_cons (SBlock m) _ _ B). split; [exact H1|]. split; [erewrite beside_block; eassumption|].
  split; [eapply am; eassumption|]. exists pairs, ps. split; [eapply hm; eassumption|exact H5].
Qed.
Lemma partial_args_in act act' q xs hs sc : beside act act' -> args_own g k xs hs = true -> partial_args w scs act q xs hs sc -> partial_args w scs' act' q xs hs sc.
Proof. intros B A (vs & pairs & ps & H1 & H2 & H3 & H4). destruct (args_split _ _ A). pose proof (beside_cons (SPartial q) _ _ B). exists vs, pairs, ps. split; [eapply asm; eassumption|]. split; [eapply hm; eassumption|]. split; assumption. Qed.
Lemma not_in_in act act' q : q <> n -> beside act act' -> ~ In (SPartial q) act -> ~ In (SPartial q) act'.
Proof. intros Hq (_ & H) X Y. apply X. now apply H. Qed.
Lemma include_in nm act act' pb q xs hs e : q <> n -> beside act act' -> args_own g k xs hs = true -> include_fails w nm scs act pb q xs hs e -> include_fails w nm scs' act' pb q xs hs e.
Proof.
  intros Hq B A X. destruct (args_split _ _ A). pose proof (beside_cons (SPartial q) _ _ B).
  destruct X; [apply inf_cycle; now apply (proj2 B)|apply inf_unknown; [eapply not_in_in; eassumption|assumption]|apply inf_hash; [eapply not_in_in; eassumption|assumption|eapply hfm; eassumption]
    |eapply inf_args; [eapply not_in_in; eassumption|assumption|eapply hm; eassumption|eapply asfm; eassumption]].
Qed.
Definition branch_own (b : branch) : bool := match fst (fst b) with Some c => call_own g k c | None => true end && forallb (iown k) (snd b).
Lemma cond_fails_in act act' b : beside act act' -> branch_own b = true -> cond_fails w scs act b -> cond_fails w scs' act' b.
Proof.
  intros B W X c E. destruct (X c E) as (v & H1 & H2). exists v. split; [eapply cm; [exact B|exact H1|]|exact H2]. apply andb_prop in W. destruct W as [W _]. unfold br_cond in E. now rewrite E in W.
Qed.
Lemma conds_fail_in act act' bs : beside act act' -> forallb branch_own bs = true -> Forall (cond_fails w scs act) bs -> Forall (cond_fails w scs' act') bs.
Proof. intros B. rewrite forallb_forall, !Forall_forall. intros W X b Hb. eapply cond_fails_in; eauto. Qed.
Lemma else_in act act' bs r : beside act act' -> forallb branch_own bs = true -> else_branch w scs act bs r -> else_branch w scs' act' bs r.
Proof.
  intros B W X. destruct X as [pre b post c v E H1 H2 H3 H4|pre b post E H1 H2 H3|H1 H2].
  - subst bs. rewrite forallb_app in W. apply andb_prop in W. destruct W as [N1 N2]. cbn [forallb] in N2. apply andb_prop in N2. destruct N2 as [N2 _].
    eapply else_cond; [reflexivity|eapply conds_fail_in; eassumption|exact H2| |exact H4]. eapply cm; [exact B|exact H3|]. apply andb_prop in N2. destruct N2 as [N2 _]. unfold br_cond in H2. now rewrite H2 in N2.
  - eapply else_plain; try eassumption. eapply conds_fail_in; eassumption.
  - apply else_none; [eapply conds_fail_in; eassumption|assumption].
Qed.
Lemma else_own act bs b post : forallb branch_own bs = true -> else_branch w scs act bs (Some (b, post)) -> forallb (iown k) (br_body b) = true.
Proof.
  intros W X. rewrite forallb_forall in W. assert (Y : In b bs) by (inversion X; subst; apply in_or_app; right; left; reflexivity). specialize (W b Y). apply andb_prop in W. exact (proj2 W).
Qed.
Lemma cond_breaks_in nm act act' bs err : beside act act' -> forallb branch_own bs = true -> cond_breaks w nm scs act bs err -> cond_breaks w nm scs' act' bs err.
Proof.
  intros B W [pre b post c -> H1 H2 H3]. rewrite forallb_app in W. apply andb_prop in W. destruct W as [N1 N2]. cbn [forallb] in N2. apply andb_prop in N2. destruct N2 as [N2 _].
  eapply cond_break; [reflexivity|eapply conds_fail_in; eassumption|exact H2|]. eapply cfm; [exact H3|exact B|]. apply andb_prop in N2. destruct N2 as [N2 _]. unfold br_cond in H2. now rewrite H2 in N2.
Qed.
End At.

Hypothesis Hdocs : forall q d, q <> n -> assoc q (w_docs w) = Some d -> forallb (iown 1) d = true.
Lemma source_own q d : q <> n -> partial_source w None q d -> forallb (iown 1) d = true.
Proof. intros Hq [(_ & X)|(_ & X)]; [discriminate X|exact (Hdocs _ _ Hq X)]. Qed.
Lemma block_split k m xs hs tl body bs tl' : iown k (IBlock false (Call (HdName m) [] xs hs) tl body bs tl') = true ->
  (assoc m (rg_helpers (w_reg w)) = None \/ In m block_helpers /\ standard w m) /\ args_own g k xs hs = true /\ forallb (branch_own k) bs = true
  /\ forallb (iown (if (match assoc m (rg_helpers (w_reg w)) with Some _ => true | None => false end) && among [lit "with"; lit "each"] m then S k else k)) body = true.
Proof.
  cbn [item_own]. rewrite name_text. intros X. apply andb_prop in X. destruct X as [X X4]. apply andb_prop in X. destruct X as [X X3]. apply andb_prop in X. destruct X as [X1 X2].
  apply andb_prop in X1. destruct X1 as [X1 _]. split; [|auto]. destruct (assoc m (rg_helpers (w_reg w))) eqn:E; [|auto]. cbn [implb] in X1. apply among_in in X1. right. split; [exact X1|]. apply Hstd; [exact X1|congruence].
Qed.
Lemma same_split k m xs hs tl body bs tl' : ~ In m [lit "with"; lit "each"] \/ assoc m (rg_helpers (w_reg w)) = None -> iown k (IBlock false (Call (HdName m) [] xs hs) tl body bs tl') = true ->
  args_own g k xs hs = true /\ forallb (iown k) body = true /\ forallb (branch_own k) bs = true.
Proof.
  intros C X. destruct (block_split _ _ _ _ _ _ _ _ X) as (_ & X1 & X2 & X3). split; [exact X1|]. split; [|exact X2]. destruct C as [C|C]; [|rewrite C in X3; exact X3].
  destruct (among [lit "with"; lit "each"] m) eqn:E; [destruct C; now apply among_in|]. now rewrite andb_false_r in X3.
Qed.
Lemma with_split k m xs hs tl body bs tl' : In m [lit "with"; lit "each"] -> standard w m -> iown k (IBlock false (Call (HdName m) [] xs hs) tl body bs tl') = true ->
  args_own g k xs hs = true /\ forallb (iown (S k)) body = true.
Proof.
  intros C (f & _ & S) X. destruct (block_split _ _ _ _ _ _ _ _ X) as (_ & X1 & X2 & X3). split; [exact X1|]. rewrite S, (in_among _ _ C) in X3. exact X3.
Qed.
Lemma stmt_split k tr m h t xs hs : iown k (ICall tr m false (Call h t xs hs)) = true -> path_own g k h = true /\ args_own g k xs hs = true.
Proof. intros X. destruct (call_split k h t xs hs X) as (X1 & X2 & X3). split; [exact X1|]. unfold args_own. now rewrite X2, X3. Qed.
Lemma dyn_split k tr m h t xs hs ys gs : iown k (IDyn tr m false (Call h t xs hs) ys gs) = true -> path_own g k h = true /\ args_own g k xs hs = true.
Proof. intros X. destruct (call_split k h t xs hs X) as (X1 & X2 & X3). split; [exact X1|]. unfold args_own. now rewrite X2, X3. Qed.
Lemma partial_split k tr m h t xs hs q : iown k (ICall tr m true (Call h t xs hs)) = true -> partial_name h t q -> q <> n /\ args_own g k xs hs = true.
Proof. cbn [item_own]. intros X (-> & _). apply andb_prop in X. destruct X as [X1 X2]. split; [|exact X2]. intros E. rewrite E, streq_refl in X1. discriminate X1. Qed.
Ltac un := first [eapply un_called; eassumption|eapply un_helper; eassumption|eapply un_missing; eassumption|eapply un_link; eassumption].
Ltac pp := first [eapply plain_out; eassumption|apply plain_writes|apply plain_halt].
Lemma not_with : ~ In (lit "if") [lit "with"; lit "each"] /\ ~ In (lit "unless") [lit "with"; lit "each"].
Proof. split; intros [X|[X|[]]]; discriminate X. Qed.
Lemma no_own k scs m name f prop xs hs tl body bs tl' : block_by w scs m name f prop -> iown k (IBlock false (Call (HdName m) [] xs hs) tl body bs tl') = true -> False.
Proof.
  intros X Y. destruct (block_split _ _ _ _ _ _ _ _ Y) as (Z & _). destruct X as [f X1 X2|f v X1 X2 X3]; [|congruence]. destruct Z as [Z|(Z & g0 & Z1 & Z2)]; [congruence|]. apply X2. split; [exact Z|]. assert (g0 = f) by congruence. now subst.
Qed.
Lemma block_name k m xs hs tl body bs tl' : iown k (IBlock false (Call (HdName m) [] xs hs) tl body bs tl') = true -> path_own g k (HdName m) = true.
Proof. cbn [item_own]. rewrite name_text. intros X. apply andb_prop in X. destruct X as [X _]. apply andb_prop in X. destruct X as [X _]. apply andb_prop in X. destruct X as [X _]. apply andb_prop in X. exact (proj2 X). Qed.
Lemma block_args k m xs hs tl body bs tl' : iown k (IBlock false (Call (HdName m) [] xs hs) tl body bs tl') = true -> args_own g k xs hs = true.
Proof. intros X. exact (proj1 (proj2 (block_split _ _ _ _ _ _ _ _ X))). Qed.
Theorem out_in :
  (forall scs act pb pb' s e i out, item_out w scs act pb pb' s e i out -> forall k scs' act', iown k i = true -> under g (w_data w) k scs scs' -> beside act act' -> pb = None -> item_out w scs' act' pb pb' s e i out /\ pb' = None)
  /\ (forall scs act pb pb' s e l out, items_out w scs act pb pb' s e l out -> forall k scs' act', forallb (iown k) l = true -> under g (w_data w) k scs scs' -> beside act act' -> pb = None -> items_out w scs' act' pb pb' s e l out /\ pb' = None)
  /\ (forall its scs act pb pb' s e l out, rounds_out w its scs act pb pb' s e l out -> forall k scs' act', forallb (iown (S k)) l = true -> under g (w_data w) k scs scs' -> beside act act' -> pb = None -> rounds_out w its scs' act' pb pb' s e l out /\ pb' = None)
  /\ (forall scs act pb pb' m' r out, else_out w scs act pb pb' m' r out -> forall k scs' act', (forall b post, r = Some (b, post) -> forallb (iown k) (br_body b) = true) -> under g (w_data w) k scs scs' -> beside act act' -> pb = None -> else_out w scs' act' pb pb' m' r out /\ pb' = None)
  /\ (forall scs act pb pb' m body bs m' cur l out, steps_out w scs act pb pb' m body bs m' cur l out -> True).
Proof.
  apply (out_ex w); intros.
  all: try exact I.
  all: try match goal with H : iown _ (ICall _ _ false (Call _ _ _ _)) = true |- _ => destruct (stmt_split _ _ _ _ _ _ _ H) as (? & ?) end.
  all: try match goal with H : iown _ (IDyn _ _ false (Call _ _ _ _) _ _) = true |- _ => destruct (dyn_split _ _ _ _ _ _ _ _ _ H) as (? & ?) end.
  all: try match goal with H : iown _ (IDyn _ _ true _ _ _) = true |- _ => cbn [item_own] in H; discriminate H end.
  all: try match goal with H : iown _ (IBlock true _ _ _ _ _) = true |- _ => cbn [item_own] in H; discriminate H end.
  all: try (split; [constructor; assumption|assumption]).
  - split; [|assumption]. eapply io_value; [eapply cm; eassumption|eassumption|assumption].
  - split; [|assumption]. eapply io_missing. eapply cm; eassumption.
  - split; [|assumption]. eapply io_print; [eapply called_in; eassumption|eapply helper_in; try eassumption; [un|pp]|assumption].
  - split; [|assumption]. eapply io_print_value; [eapply called_in; eassumption|eapply helper_in; try eassumption; [un|pp]|eassumption|eassumption|assumption].
  - split; [|assumption]. eapply io_dyn_value; [eapply cm; eassumption|eassumption|assumption].
  - split; [|assumption]. eapply io_dyn_missing. eapply cm; eassumption.
  - split; [|assumption]. eapply io_dyn_print; [eapply called_in; eassumption|eapply helper_in; try eassumption; [un|pp]|assumption].
  - split; [|assumption]. eapply io_dyn_print_value; [eapply called_in; eassumption|eapply helper_in; try eassumption; [un|pp]|eassumption|eassumption|assumption].
  - split; [|assumption]. eapply io_link_handler; [assumption|eassumption|erewrite beside_helper; eassumption| |eassumption]. match goal with H : rg_link _ = Some f |- _ => eapply (un_link f H); [pp|eassumption] end.
  - split; [|assumption]. eapply io_raw; eassumption.
  - split; [|assumption]. eapply io_raw_helper; try eassumption. eapply helper_in; try eassumption; [un|pp].
  - match goal with H : iown _ (ICall _ _ true _) = true, P : partial_name _ _ _ |- _ => destruct (partial_split _ _ _ _ _ _ _ _ H P) as (? & ?) end. subst pb.
    match goal with H : forall k scs' act', _ -> _ -> _ -> None = None -> _ |- _ => destruct (H 1 (sc :: scs') (SPartial n0 :: act')) as (? & ?); [eapply source_own; eassumption|eapply under_one; eassumption|now apply beside_cons|reflexivity|] end.
    split; [|assumption]. eapply io_partial; try eassumption; [eapply not_in_in; eassumption|eapply partial_args_in; eassumption].
  - match goal with H : iown _ (IBlock _ _ _ _ _ _) = true |- _ => destruct (same_split _ _ _ _ _ _ _ _ (or_introl (proj1 not_with)) H) as (? & ? & ?) end.
    match goal with H : forall k scs' act', _ -> _ -> _ -> pb = None -> _ |- _ => destruct (H k scs' (SBlock (lit "if") :: act')) as (? & ?); [assumption|assumption|now apply beside_cons|assumption|] end.
    split; [|assumption]. eapply io_if; [eapply block_arg_in|..]; eassumption.
  - match goal with H : iown _ (IBlock _ _ _ _ _ _) = true |- _ => destruct (same_split _ _ _ _ _ _ _ _ (or_introl (proj1 not_with)) H) as (? & ? & ?) end.
    match goal with H : forall k scs' act', _ -> _ -> _ -> pb = None -> _ |- _ => destruct (H k scs' (SBlock (lit "if") :: act')) as (? & ?); [intros ? ? ->; eapply else_own; eassumption|assumption|now apply beside_cons|assumption|] end.
    split; [|assumption]. eapply io_if_else; [eapply block_arg_in|..]; try eassumption. eapply else_in; [eassumption|apply beside_cons; eassumption|eassumption|eassumption].
  - match goal with H : iown _ (IBlock _ _ _ _ _ _) = true |- _ => destruct (same_split _ _ _ _ _ _ _ _ (or_introl (proj2 not_with)) H) as (? & ? & ?) end.
    match goal with H : forall k scs' act', _ -> _ -> _ -> pb = None -> _ |- _ => destruct (H k scs' (SBlock (lit "unless") :: act')) as (? & ?); [assumption|assumption|now apply beside_cons|assumption|] end.
    split; [|assumption]. eapply io_unless; [eapply block_arg_in|..]; eassumption.
  - match goal with H : iown _ (IBlock _ _ _ _ _ _) = true |- _ => destruct (same_split _ _ _ _ _ _ _ _ (or_introl (proj2 not_with)) H) as (? & ? & ?) end.
    match goal with H : forall k scs' act', _ -> _ -> _ -> pb = None -> _ |- _ => destruct (H k scs' (SBlock (lit "unless") :: act')) as (? & ?); [intros ? ? ->; eapply else_own; eassumption|assumption|now apply beside_cons|assumption|] end.
    split; [|assumption]. eapply io_unless_else; [eapply block_arg_in|..]; try eassumption. eapply else_in; [eassumption|apply beside_cons; eassumption|eassumption|eassumption].
  - match goal with B : block_arg _ _ _ _ _ _ _, H : iown _ (IBlock _ _ _ _ _ _) = true |- _ => destruct (with_split _ _ _ _ _ _ _ _ (or_introl eq_refl) (proj1 B) H) as (? & ?) end.
    match goal with H : forall k scs' act', _ -> _ -> _ -> pb = None -> _ |- _ => destruct (H (S k) (mkScope (Some v) [] :: scs') (SBlock (lit "with") :: act')) as (? & ?); [assumption|now apply under_cons|now apply beside_cons|assumption|] end.
    split; [|assumption]. eapply io_with; [eapply block_arg_in|..]; eassumption.
  - match goal with H : iown _ (IBlock _ _ _ _ _ _) = true |- _ => pose proof (block_args _ _ _ _ _ _ _ _ H) end.
    split; [|assumption]. eapply io_with_null. eapply block_arg_in; eassumption.
  - match goal with B : block_arg _ _ _ _ _ _ _, H : iown _ (IBlock _ _ _ _ _ _) = true |- _ => destruct (with_split _ _ _ _ _ _ _ _ (or_intror (or_introl eq_refl)) (proj1 B) H) as (? & ?) end.
    match goal with H : forall k scs' act', _ -> _ -> _ -> pb = None -> _ |- _ => destruct (H k scs' (SBlock (lit "each") :: act')) as (? & ?); [assumption|assumption|now apply beside_cons|assumption|] end.
    split; [|assumption]. eapply io_each; [eapply block_arg_in|..]; eassumption.
  - match goal with E : assoc _ _ = None, H : iown _ (IBlock _ _ _ _ _ _) = true |- _ => destruct (same_split _ _ _ _ _ _ _ _ (or_intror E) H) as (? & ? & ?) end.
    match goal with H : forall k scs' act', _ -> _ -> _ -> pb = None -> _ |- _ => destruct (H k scs' act') as (? & ?); [assumption..|] end.
    split; [|assumption]. eapply io_block; try eassumption. eapply value_in; [eassumption|eapply block_name; eassumption|eassumption].
  - split; [|assumption]. eapply io_block_missing; try eassumption. eapply no_value_in; [eassumption|eapply block_name; eassumption|eassumption].
  - match goal with H : iown _ (IBlock _ _ _ _ _ _) = true |- _ => pose proof (block_args _ _ _ _ _ _ _ _ H) end.
    split; [|assumption]. eapply io_block_helper; try eassumption. eapply helper_in; try eassumption; [un|pp].
  - congruence.
  - match goal with H : iown _ (IBlock _ _ _ _ _ _) = true |- _ => pose proof (block_args _ _ _ _ _ _ _ _ H) end.
    split; [|assumption]. eapply io_block_missing_handler; try eassumption; [eapply no_value_in; [eassumption|eapply block_name; eassumption|eassumption]|eapply helper_in; try eassumption; [un|pp]].
  - exfalso. eapply no_own; eassumption.
  - cbn [forallb] in *. match goal with H : _ && _ = true |- _ => apply andb_prop in H; destruct H end.
    match goal with H1 : forall k scs' act', iown k i = true -> _, H2 : forall k scs' act', forallb _ l = true -> _ |- _ => destruct (H1 k scs' act') as (? & ?); [assumption..|]; destruct (H2 k scs' act') as (? & ?); [assumption..|] end. split; [econstructor; eassumption|assumption].
  - match goal with H1 : forall k scs' act', _ -> _ -> _ -> pb = None -> _, H2 : forall k scs' act', _ -> _ -> _ -> pb1 = None -> _ |- _ => destruct (H1 (S k) (sc :: scs') act') as (? & ?); [assumption|now apply under_cons|assumption|assumption|]; destruct (H2 k scs' act') as (? & ?); [assumption..|] end. split; [econstructor; eassumption|assumption].
  - match goal with H : forall k scs' act', _ -> _ -> _ -> pb = None -> _, H1 : forall b post, _ -> _ |- _ => destruct (H k scs' act' (H1 _ _ eq_refl)) as (? & ?); [assumption..|] end. split; [constructor; assumption|assumption].
Qed.
Theorem err_in nm :
  (forall scs act pb s e i out err, item_err w nm scs act pb s e i out err -> forall k scs' act', iown k i = true -> under g (w_data w) k scs scs' -> beside act act' -> pb = None -> item_err w nm scs' act' pb s e i out err)
  /\ (forall scs act pb s e l out err, items_err w nm scs act pb s e l out err -> forall k scs' act', forallb (iown k) l = true -> under g (w_data w) k scs scs' -> beside act act' -> pb = None -> items_err w nm scs' act' pb s e l out err)
  /\ (forall its scs act pb s e l out err, rounds_err w nm its scs act pb s e l out err -> forall k scs' act', forallb (iown (S k)) l = true -> under g (w_data w) k scs scs' -> beside act act' -> pb = None -> rounds_err w nm its scs' act' pb s e l out err)
  /\ (forall scs act pb bs m' out err, else_err w nm scs act pb bs m' out err -> forall k scs' act', forallb (branch_own k) bs = true -> under g (w_data w) k scs scs' -> beside act act' -> pb = None -> else_err w nm scs' act' pb bs m' out err)
  /\ (forall act pb m body bs m' cur l out err, steps_err w nm act pb m body bs m' cur l out err -> True).
Proof.
  destruct out_in as (O1 & O2 & _ & O4 & _).
  apply (err_ex w nm); intros.
  all: try exact I.
  all: try match goal with H : iown _ (IDyn _ _ true _ _ _) = true |- _ => cbn [item_own] in H; discriminate H end.
  all: try match goal with H : iown _ (IBlock true _ _ _ _ _) = true |- _ => cbn [item_own] in H; discriminate H end.
  - eapply ie_call. eapply cfm; eassumption.
  - eapply ie_dyn. destruct p; [discriminate|]. eapply cfm; eassumption.
  - eapply ie_link_cycle; try eassumption. erewrite beside_helper; eassumption.
  - eapply ie_link; try eassumption; [erewrite beside_helper; eassumption|]. match goal with H : rg_link _ = Some f |- _ => eapply (un_link f H); [pp|eassumption] end.
  - eapply ie_raw; try eassumption. eapply hcm; try eassumption. un.
  - apply ie_partial_identifier; assumption.
  - match goal with H : iown _ (ICall _ _ true _) = true, P : partial_name _ _ _ |- _ => destruct (partial_split _ _ _ _ _ _ _ _ H P) as (? & ?) end.
    eapply ie_partial_enter; [eassumption|eapply include_in; eassumption].
  - match goal with H : iown _ (ICall _ _ true _) = true, P : partial_name _ _ _ |- _ => destruct (partial_split _ _ _ _ _ _ _ _ H P) as (? & ?) end. subst pb.
    eapply ie_partial; try eassumption; [eapply not_in_in; eassumption|eapply partial_args_in; eassumption|].
    match goal with H : forall k scs' act', _ -> _ -> _ -> None = None -> _ |- _ => apply (H 1); [eapply source_own; eassumption|eapply under_one; eassumption|now apply beside_cons|reflexivity] end.
  - match goal with H : iown _ (IBlock _ _ _ _ _ _) = true |- _ => pose proof (block_args _ _ _ _ _ _ _ _ H) end. eapply ie_block_helper; try eassumption. eapply hcm; try eassumption. un.
  - match goal with H : iown _ (IBlock _ _ _ _ _ _) = true |- _ => destruct (same_split _ _ _ _ _ _ _ _ (or_introl (proj1 not_with)) H) as (? & ? & ?) end.
    eapply ie_if; [eapply block_arg_in|..]; try eassumption. match goal with H : forall k scs' act', _ -> _ -> _ -> pb = None -> _ |- _ => apply (H k); auto using beside_cons end.
  - match goal with H : iown _ (IBlock _ _ _ _ _ _) = true |- _ => destruct (same_split _ _ _ _ _ _ _ _ (or_introl (proj1 not_with)) H) as (? & ? & ?) end.
    eapply ie_if_else; [eapply block_arg_in|..]; try eassumption. match goal with H : forall k scs' act', _ -> _ -> _ -> pb = None -> _ |- _ => apply (H k); auto using beside_cons end.
  - match goal with H : iown _ (IBlock _ _ _ _ _ _) = true |- _ => destruct (same_split _ _ _ _ _ _ _ _ (or_introl (proj2 not_with)) H) as (? & ? & ?) end.
    eapply ie_unless; [eapply block_arg_in|..]; try eassumption. match goal with H : forall k scs' act', _ -> _ -> _ -> pb = None -> _ |- _ => apply (H k); auto using beside_cons end.
  - match goal with H : iown _ (IBlock _ _ _ _ _ _) = true |- _ => destruct (same_split _ _ _ _ _ _ _ _ (or_introl (proj2 not_with)) H) as (? & ? & ?) end.
    eapply ie_unless_else; [eapply block_arg_in|..]; try eassumption. match goal with H : forall k scs' act', _ -> _ -> _ -> pb = None -> _ |- _ => apply (H k); auto using beside_cons end.
  - match goal with B : block_arg _ _ _ _ _ _ _, H : iown _ (IBlock _ _ _ _ _ _) = true |- _ => destruct (with_split _ _ _ _ _ _ _ _ (or_introl eq_refl) (proj1 B) H) as (? & ?) end.
    eapply ie_with; [eapply block_arg_in|..]; try eassumption. match goal with H : forall k scs' act', _ -> _ -> _ -> pb = None -> _ |- _ => apply (H (S k)); auto using beside_cons, under_cons end.
  - match goal with B : block_arg _ _ _ _ _ _ _, H : iown _ (IBlock _ _ _ _ _ _) = true |- _ => destruct (with_split _ _ _ _ _ _ _ _ (or_intror (or_introl eq_refl)) (proj1 B) H) as (? & ?) end.
    eapply ie_each; [eapply block_arg_in|..]; try eassumption. match goal with H : forall k scs' act', _ -> _ -> _ -> pb = None -> _ |- _ => apply (H k); auto using beside_cons end.
  - match goal with E : assoc _ _ = None, H : iown _ (IBlock _ _ _ _ _ _) = true |- _ => destruct (same_split _ _ _ _ _ _ _ _ (or_intror E) H) as (? & ? & ?) end.
    eapply ie_block; try eassumption; [eapply value_in; [eassumption|eapply block_name; eassumption|eassumption]|]. match goal with H : forall k scs' act', _ -> _ -> _ -> pb = None -> _ |- _ => apply (H k); assumption end.
  - eapply ie_block_strict; try eassumption. eapply no_value_in; [eassumption|eapply block_name; eassumption|eassumption].
  - congruence.
  - match goal with H : iown _ (IBlock _ _ _ _ _ _) = true |- _ => pose proof (block_args _ _ _ _ _ _ _ _ H) end.
    eapply ie_block_missing_handler; try eassumption; [eapply no_value_in; [eassumption|eapply block_name; eassumption|eassumption]|eapply hcm; try eassumption; un].
  - exfalso. eapply no_own; eassumption.
  - cbn [forallb] in *. match goal with H : _ && _ = true |- _ => apply andb_prop in H; destruct H end. apply err_here. eauto.
  - cbn [forallb] in *. match goal with H : _ && _ = true |- _ => apply andb_prop in H; destruct H end.
    match goal with H1 : item_out _ _ _ pb pb1 _ _ i _ |- _ => destruct (O1 _ _ _ _ _ _ _ _ H1 k scs' act') as (? & ?); [assumption..|] end. eapply err_later; [eassumption|eauto].
  - apply round_here. match goal with H : forall k scs' act', _ -> _ -> _ -> pb = None -> _ |- _ => apply (H (S k)); auto using under_cons end.
  - match goal with H1 : items_out _ _ _ pb pb1 _ _ l _ |- _ => destruct (O2 _ _ _ _ _ _ _ _ H1 (S k) (sc :: scs') act') as (? & ?); [assumption|now apply under_cons|assumption|assumption|] end.
    eapply round_later; [eassumption|eauto].
  - apply else_err_cond. eapply cond_breaks_in; eassumption.
  - eapply else_err_body; [eapply else_in; eassumption|]. match goal with H : forall k scs' act', _ -> _ -> _ -> pb = None -> _ |- _ => apply (H k); [eapply else_own; eassumption|assumption..] end.
Qed.
End Extract.
