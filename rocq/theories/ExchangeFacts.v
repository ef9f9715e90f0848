(** * ExchangeFacts: exchanging parts preserves the semantics (proofs for C73) *)
From Coq Require Import Lia String.
From Verif Require Import Str Json Ast Parser Render Registry Spec_Helpers Spec_Source Spec_Sem Spec_Fail Spec_Total Spec_Exchange OwnFacts.
Open Scope nat_scope. Open Scope list_scope.

Scheme arg_ex := Minimality for arg_value Sort Prop
  with args_ex := Minimality for args_value Sort Prop
  with hash_ex := Minimality for hash_value Sort Prop
  with call_ex := Minimality for call_value Sort Prop.
Combined Scheme values_ex from arg_ex, args_ex, hash_ex, call_ex.
Scheme argf_ex := Minimality for arg_fails Sort Prop
  with argsf_ex := Minimality for args_fail Sort Prop
  with hashf_ex := Minimality for hash_fails Sort Prop
  with helperf_ex := Minimality for helper_call_fails Sort Prop
  with callf_ex := Minimality for call_fails Sort Prop.
Combined Scheme fails_ex from argf_ex, argsf_ex, hashf_ex, helperf_ex, callf_ex.
Scheme item_out_ex := Minimality for item_out Sort Prop
  with items_out_ex := Minimality for items_out Sort Prop
  with rounds_out_ex := Minimality for rounds_out Sort Prop
  with else_out_ex := Minimality for else_out Sort Prop
  with steps_out_ex := Minimality for steps_out Sort Prop.
Combined Scheme out_ex from item_out_ex, items_out_ex, rounds_out_ex, else_out_ex, steps_out_ex.
Scheme item_err_ex := Minimality for item_err Sort Prop
  with items_err_ex := Minimality for items_err Sort Prop
  with rounds_err_ex := Minimality for rounds_err Sort Prop
  with else_err_ex := Minimality for else_err Sort Prop
  with steps_err_ex := Minimality for steps_err Sort Prop.
Combined Scheme err_ex from item_err_ex, items_err_ex, rounds_err_ex, else_err_ex, steps_err_ex.

Section exchange.
Variables (pl : plat) (reg : registry) (ts : list (str * template)) (data : json) (docs docs' : list (str * list item)).
Let w := mkWorld pl reg data docs.
Let w' := mkWorld pl (set_templates ts reg) data docs'.
Hypothesis Hdocs : exchanged_docs w w'.
Hypothesis Hclosed : closed w.
Hypothesis Hkeys : forall n, assoc n (rg_templates reg) <> None <-> assoc n ts <> None.

Lemma plain_helpers n f : assoc n (rg_helpers (w_reg w)) = Some f -> simple w true f \/ (In n block_helpers /\ builtin (w_plat w) n f).
Proof. intros H. exact (proj2 (cl_helper w Hclosed n f H)). Qed.
Lemma called_move scs h t n f : called w scs h t n f -> called w' scs h t n f.
Proof. intros H. inversion H; subst; [apply called_helper|eapply called_missing]; eassumption. Qed.
Lemma values_move scs act :
  (forall x v, arg_value w scs act x v -> arg_value w' scs act x v)
  /\ (forall xs vs, args_value w scs act xs vs -> args_value w' scs act xs vs)
  /\ (forall hs ps, hash_value w scs act hs ps -> hash_value w' scs act hs ps)
  /\ (forall c v, call_value w scs act c v -> call_value w' scs act c v).
Proof.
  apply (values_ex w scs (arg_value w' scs) (args_value w' scs) (hash_value w' scs) (call_value w' scs)); intros; try (econstructor; eauto; fail).
  - eapply cv_helper; eauto. apply called_move; eassumption.
Qed.
Definition am scs act := proj1 (values_move scs act).
Definition asm scs act := proj1 (proj2 (values_move scs act)).
Definition hm scs act := proj1 (proj2 (proj2 (values_move scs act))).
Definition cm scs act := proj2 (proj2 (proj2 (values_move scs act))).
Lemma helper_move scs act blk n f xs hs text prop p : helper_call w scs act blk n f xs hs text prop p -> helper_call w' scs act blk n f xs hs text prop p.
Proof.
  intros (H & vs & pairs & ps & H1 & H2 & H3 & H4). split; [exact H|]. exists vs, pairs, ps. split; [apply asm, H1|]. split; [apply hm, H2|]. split; assumption.
Qed.
Lemma fails_move nm scs :
  (forall act x e, arg_fails w nm scs act x e -> arg_fails w' nm scs act x e)
  /\ (forall act xs e, args_fail w nm scs act xs e -> args_fail w' nm scs act xs e)
  /\ (forall act hs e, hash_fails w nm scs act hs e -> hash_fails w' nm scs act hs e)
  /\ (forall act blk n f xs hs text prop e, helper_call_fails w nm scs act blk n f xs hs text prop e -> helper_call_fails w' nm scs act blk n f xs hs text prop e)
  /\ (forall act c e, call_fails w nm scs act c e -> call_fails w' nm scs act c e).
Proof.
  apply fails_ex; intros.
  - now constructor.
  - now apply asf_here.
  - eapply asf_later; [apply am; eassumption|assumption].
  - eapply hf_one; [apply hm; eassumption|assumption|apply hm; eassumption].
  - now apply hc_cycle.
  - now apply hc_arg.
  - eapply hc_hash; [assumption|apply asm; eassumption|assumption].
  - apply hc_run. now apply helper_move.
  - eapply cf_helper; [apply called_move; eassumption|assumption].
  - now apply cf_strict.
Qed.
Definition afm nm scs := proj1 (fails_move nm scs).
Definition asfm nm scs := proj1 (proj2 (fails_move nm scs)).
Definition hfm nm scs := proj1 (proj2 (proj2 (fails_move nm scs))).
Definition hcm nm scs := proj1 (proj2 (proj2 (proj2 (fails_move nm scs)))).
Definition cfm nm scs := proj2 (proj2 (proj2 (proj2 (fails_move nm scs)))).
Lemma ho_move s e p out : helper_out w s e p out -> helper_out w' s e p out.
Proof. intros H. induction H; [apply ho_value|]. apply (ho_writes w' s e x esc y ws v out); assumption. Qed.
Lemma block_arg_move scs act n x hs v : block_arg w scs act n x hs v -> block_arg w' scs act n x hs v.
Proof.
  intros (H1 & H2 & H3 & pairs & ps & H4 & H5). split; [exact H1|]. split; [exact H2|]. split; [apply am, H3|]. exists pairs, ps. split; [apply hm, H4|exact H5].
Qed.
Lemma partial_args_move scs act n xs hs sc : partial_args w scs act n xs hs sc -> partial_args w' scs act n xs hs sc.
Proof. intros (vs & pairs & ps & H1 & H2 & H3 & H4). exists vs, pairs, ps. split; [apply asm, H1|]. split; [apply hm, H2|]. split; assumption. Qed.

(** ** The relation, seen from the outside in *)
Notation exch := (exchanged w').
Definition br_ex (b b' : branch) : Prop := br_cond b = br_cond b' /\ br_tildes b = br_tildes b' /\ Forall2 exch (br_body b) (br_body b').
Definition inside (i k : item) : Prop :=
  match i with
  | IBlock p c m body bs m' => exists body' bs', k = IBlock p c m body' bs' m' /\ Forall2 exch body body' /\ Forall2 br_ex bs bs'
  | _ => k = i
  end.
Lemma means_refl i : means_same w' i i.
Proof. repeat split; intros; assumption. Qed.
Lemma exch_refl i : exch i i.
Proof. apply ex_here, means_refl. Qed.
Lemma all_refl l : Forall2 exch l l.
Proof. induction l; constructor; [apply exch_refl|assumption]. Qed.
Lemma br_refl bs : Forall2 br_ex bs bs.
Proof. induction bs; constructor; [repeat split; apply all_refl|assumption]. Qed.
Lemma inside_refl i : inside i i.
Proof. destruct i; try reflexivity. cbn. eexists _, _. split; [reflexivity|]. split; [apply all_refl|apply br_refl]. Qed.
Lemma exch_split i j : exch i j -> exists k, inside i k /\ means_same w' k j.
Proof.
  intros H. destruct H as [i j H|p c m body bs m' body' bs' H1 H2].
  - exists i. split; [apply inside_refl|exact H].
  - eexists. split; [|apply means_refl]. cbn. eexists _, _. split; [reflexivity|]. split; assumption.
Qed.
Lemma inside_before i k : inside i k -> before k = before i.
Proof. destruct i; cbn; try (intros ->; reflexivity). intros (b & bs & -> & _). reflexivity. Qed.
Lemma inside_after i k : inside i k -> after k = after i.
Proof. destruct i; cbn; try (intros ->; reflexivity). intros (b & bs & -> & _). reflexivity. Qed.
Lemma exch_before i j : exch i j -> before j = before i.
Proof. intros H. destruct (exch_split _ _ H) as (k & H1 & H2 & _). rewrite <- H2. now apply inside_before. Qed.
Lemma exch_after i j : exch i j -> after j = after i.
Proof. intros H. destruct (exch_split _ _ H) as (k & H1 & _ & H2 & _). rewrite <- H2. now apply inside_after. Qed.
Lemma exch_next e l l' : Forall2 exch l l' -> next_before e l' = next_before e l.
Proof. intros H. destruct H; [reflexivity|]. cbn. now apply exch_before. Qed.
Lemma br_next bs bs' m' : Forall2 br_ex bs bs' -> next_tag bs' m' = next_tag bs m'.
Proof. intros H. destruct H as [|b b' ? ? (_ & E & _)]; [reflexivity|]. symmetry. exact E. Qed.
Definition pb_ex (pb pb2 : option (list item)) : Prop :=
  match pb, pb2 with Some l, Some l' => Forall2 exch l l' | None, None => True | _, _ => False end.
Lemma source_ex pb pb2 n d : pb_ex pb pb2 -> partial_source w pb n d -> exists d', partial_source w' pb2 n d' /\ Forall2 exch d d'.
Proof.
  intros Hp [(-> & ->)|(Hn & Hd)].
  - destruct pb2 as [d'|]; [|destruct Hp]. exists d'. split; [left; split; reflexivity|exact Hp].
  - pose proof (Hdocs n) as X. cbn [w w_docs] in X, Hd. rewrite Hd in X. destruct (assoc n (w_docs w')) as [d'|] eqn:E; [|destruct X]. exists d'. split; [|exact X].
    right. split; [|exact E]. destruct Hn as [Hn| ->]; [left; exact Hn|right]. destruct pb2; [destruct Hp|reflexivity].
Qed.
Lemma known_ex pb pb2 n : pb_ex pb pb2 -> known_partial w pb n <-> known_partial w' pb2 n.
Proof.
  intros Hp. unfold known_partial. cbn [w w' w_reg set_templates rg_templates]. rewrite (Hkeys n).
  assert (pb <> None <-> pb2 <> None) as ->; [|reflexivity]. destruct pb, pb2; try (destruct Hp); split; intros; try discriminate; congruence.
Qed.
Lemma cond_fails_ex scs act b b' : br_ex b b' -> cond_fails w scs act b -> cond_fails w' scs act b'.
Proof. intros (E & _) H c Hc. rewrite <- E in Hc. destruct (H c Hc) as (v & Hv & Hh). exists v. split; [apply cm, Hv|exact Hh]. Qed.
Lemma conds_fail_ex scs act bs bs' : Forall2 br_ex bs bs' -> Forall (cond_fails w scs act) bs -> Forall (cond_fails w' scs act) bs'.
Proof. induction 1 as [|b b' l l' Hb _ IH]; intros H; inversion H; subst; constructor; [eapply cond_fails_ex; eassumption|auto]. Qed.
Lemma no_plain_ex bs bs' : Forall2 br_ex bs bs' -> (forall x, In x bs -> br_cond x <> None) -> forall x, In x bs' -> br_cond x <> None.
Proof. induction 1 as [|b b' ? ? (E & _) _ IH]; intros H x Hx; [destruct Hx|]. destruct Hx as [<-|Hx]; [rewrite <- E; apply H; now left|apply IH; [intros y Hy; apply H; now right|exact Hx]]. Qed.
Definition pick_ex (r r' : option (branch * list branch)) : Prop :=
  match r, r' with Some (b, post), Some (b', post') => br_ex b b' /\ Forall2 br_ex post post' | None, None => True | _, _ => False end.
Lemma else_branch_ex scs act bs bs' r : Forall2 br_ex bs bs' -> else_branch w scs act bs r -> exists r', else_branch w' scs act bs' r' /\ pick_ex r r'.
Proof.
  intros Hb H. destruct H as [pre b post c v E Hf Hc Hv Hh|pre b post E Hf Hc Hp|Hf Hp].
  - subst bs. apply Forall2_app_inv_l in Hb. destruct Hb as (pre' & l & Hpre & Hl & ->). inversion Hl as [|? b' ? post' Hbb Hpost]; subst.
    exists (Some (b', post')). split; [|split; assumption]. eapply else_cond; [reflexivity|eapply conds_fail_ex; eassumption|rewrite <- (proj1 Hbb); exact Hc|apply cm, Hv|exact Hh].
  - assert (Hf' := conds_fail_ex _ _ _ _ Hb Hf). subst bs. apply Forall2_app_inv_l in Hb. destruct Hb as (pre' & l & Hpre & Hl & ->). inversion Hl as [|? b' ? post' Hbb Hpost]; subst.
    exists (Some (b', post')). split; [|split; assumption]. eapply else_plain; [reflexivity|exact Hf'|rewrite <- (proj1 Hbb); exact Hc|exact (no_plain_ex _ _ Hpost Hp)].
  - exists None. split; [|exact I]. apply else_none; [eapply conds_fail_ex; eassumption|exact (no_plain_ex _ _ Hb Hp)].
Qed.

(** ** Output *)
Ltac src := match goal with H : partial_source w ?pb ?n ?d |- _ =>
  let d' := fresh "d'" in let Hs := fresh "Hs" in let Hd := fresh "Hd" in
  first [ destruct (source_ex pb _ n d ltac:(eassumption) H) as (d' & Hs & Hd)
        | match goal with Hb : Forall2 _ _ ?body' |- _ => destruct (source_ex pb (Some body') n d Hb H) as (d' & Hs & Hd) end ] end.
Ltac rel := first [eassumption | match goal with Hb : Forall2 _ ?l ?l' |- pb_ex (Some ?l) _ => exact (Hb : pb_ex (Some l) (Some l')) end].
Ltac body_ih := match goal with H : forall _ _, _ |- _ => edestruct H as (q & Q & R); [rel|rel|] end.
Ltac pick := match goal with H : else_branch w ?scs ?act ?bs ?r, Hb : Forall2 br_ex ?bs _ |- _ =>
  destruct (else_branch_ex _ _ _ _ _ Hb H) as (r' & Hr1 & Hr2) end; body_ih.
Lemma out_exchange :
  (forall scs act pb pb' s e i o, item_out w scs act pb pb' s e i o -> forall k pb2, pb_ex pb pb2 -> inside i k -> exists pb2', pb_ex pb' pb2' /\ item_out w' scs act pb2 pb2' s e k o)
  /\ (forall scs act pb pb' s e l o, items_out w scs act pb pb' s e l o -> forall l' pb2, pb_ex pb pb2 -> Forall2 exch l l' -> exists pb2', pb_ex pb' pb2' /\ items_out w' scs act pb2 pb2' s e l' o)
  /\ (forall its scs act pb pb' s e l o, rounds_out w its scs act pb pb' s e l o -> forall l' pb2, pb_ex pb pb2 -> Forall2 exch l l' -> exists pb2', pb_ex pb' pb2' /\ rounds_out w' its scs act pb2 pb2' s e l' o)
  /\ (forall scs act pb pb' m' r o, else_out w scs act pb pb' m' r o -> forall r' pb2, pb_ex pb pb2 -> pick_ex r r' -> exists pb2', pb_ex pb' pb2' /\ else_out w' scs act pb2 pb2' m' r' o)
  /\ (forall scs act pb pb' m body bs m' cur l o, steps_out w scs act pb pb' m body bs m' cur l o -> True).
Proof.
  apply out_ex; intros; try exact I;
    try match goal with H : inside (IBlock _ _ _ _ _ _) _ |- _ => destruct H as (body' & bs' & -> & Hbody & Hbs) end;
    try match goal with H : inside _ _ |- _ => cbn in H; subst end;
    try (exists pb2; split; [assumption|]; econstructor;
         first [eassumption | apply cm; eassumption | apply called_move; eassumption | apply helper_move; eassumption | apply ho_move; eassumption | apply block_arg_move; eassumption | idtac]; fail).
  - exists pb2. split; [assumption|]. apply (io_value w' scs act pb2 s e triple m c v x y); [apply cm; assumption|assumption|assumption].
  - exists pb2. split; [assumption|]. apply (io_print_value w' scs act pb2 s e triple m h t xs hs n f ws out v x y); [apply called_move|apply helper_move|apply ho_move| |]; assumption.
  - exists pb2. split; [assumption|]. apply (io_dyn_value w' scs act pb2 s e triple m c xs hs v x y); [apply cm; assumption|assumption|assumption].
  - exists pb2. split; [assumption|]. apply (io_dyn_print_value w' scs act pb2 s e triple m h t xs hs xs' hs' n f ws out v x y); [apply called_move|apply helper_move|apply ho_move| |]; assumption.
  - src. body_ih. exists q. split; [assumption|]. eapply io_partial; [eassumption|eassumption|eassumption|apply partial_args_move; eassumption|eassumption].
  - src. body_ih. exists q. split; [assumption|]. eapply io_dyn_partial; [apply cm; eassumption|eassumption|eassumption|eassumption|apply partial_args_move; eassumption|eassumption].
  - src. body_ih. exists q. split; [assumption|]. eapply io_partial_block; [eassumption|eassumption|apply partial_args_move; eassumption|eassumption].
  - body_ih. exists q. split; [assumption|]. eapply io_if; [apply block_arg_move; eassumption|assumption|rewrite (br_next _ _ _ Hbs); assumption].
  - pick. exists q. split; [assumption|]. eapply io_if_else; [apply block_arg_move; eassumption|assumption|eassumption|assumption].
  - body_ih. exists q. split; [assumption|]. eapply io_unless; [apply block_arg_move; eassumption|assumption|rewrite (br_next _ _ _ Hbs); assumption].
  - pick. exists q. split; [assumption|]. eapply io_unless_else; [apply block_arg_move; eassumption|assumption|eassumption|assumption].
  - body_ih. exists q. split; [assumption|]. eapply io_with; [apply block_arg_move; eassumption|assumption|rewrite (br_next _ _ _ Hbs); assumption].
  - body_ih. exists q. split; [assumption|]. eapply io_each; [apply block_arg_move; eassumption|eassumption|rewrite (br_next _ _ _ Hbs); assumption].
  - body_ih. exists q. split; [assumption|]. eapply io_block; [eassumption|eassumption|eassumption|rewrite (br_next _ _ _ Hbs); assumption].
  - match goal with Hby : block_by _ _ _ _ _ _ |- _ => edestruct (own_out w plain_helpers (cl_block_missing w Hclosed) scs act pb pb' s e) as (-> & p & Hcl & Hho); [eassumption..|]; destruct Hby end; exists pb2; (split; [assumption|]).
    + eapply io_block_helper; [eassumption|apply helper_move; eassumption|apply ho_move; eassumption].
    + eapply io_block_handler; [eassumption|eassumption|eassumption|apply helper_move; eassumption|apply ho_move; eassumption].
  - match goal with H : Forall2 _ [] _ |- _ => inversion H; subst end. exists pb2. split; [assumption|constructor].
  - match goal with H : Forall2 _ (_ :: _) _ |- _ => inversion H as [|? j ? l2 Hij Hl]; subst end. destruct (exch_split _ _ Hij) as (k & Hk & Em).
    destruct (H0 k pb2 H3 Hk) as (q1 & Q1 & R1). destruct (H2 l2 q1 Q1 Hl) as (q & Q & R). exists q. split; [exact Q|]. eapply out_cons.
    + rewrite (exch_next _ _ _ Hl). apply Em. exact R1.
    + rewrite (exch_after _ _ Hij). exact R.
  - destruct (H0 l' pb2) as (q1 & Q1 & R1); [assumption..|]. destruct (H2 l' q1) as (q & Q & R); [assumption..|]. exists q. split; [exact Q|]. eapply round_next; eassumption.
  - destruct r' as [[? ?]|]; [match goal with H : pick_ex None _ |- _ => destruct H end|]. exists pb2. split; [assumption|constructor].
  - destruct r' as [[b' post']|]; [|match goal with H : pick_ex _ None |- _ => destruct H end]. match goal with H : pick_ex _ _ |- _ => destruct H as [(_ & E2 & E3) E4] end.
    destruct (H0 (br_body b') pb2) as (q & Q & R); [assumption..|]. exists q. split; [exact Q|]. constructor. rewrite <- E2, (br_next _ _ _ E4). exact R.
Qed.
Lemma pb_none : pb_ex None None.
Proof. exact I. Qed.
Definition item_exchange := proj1 out_exchange.
Definition items_exchange := proj1 (proj2 out_exchange).
Lemma cond_breaks_ex nm scs act bs bs' err : Forall2 br_ex bs bs' -> cond_breaks w nm scs act bs err -> cond_breaks w' nm scs act bs' err.
Proof.
  intros Hb [pre b post c E Hf Hc Hv]. subst bs. apply Forall2_app_inv_l in Hb. destruct Hb as (pre' & l & Hpre & Hl & ->). inversion Hl as [|? b' ? post' Hbb Hpost]; subst.
  eapply cond_break; [reflexivity|eapply conds_fail_ex; eassumption|rewrite <- (proj1 Hbb); exact Hc|apply cfm, Hv].
Qed.
Lemma include_ex nm scs act pb pb2 n xs hs err : pb_ex pb pb2 -> include_fails w nm scs act pb n xs hs err -> include_fails w' nm scs act pb2 n xs hs err.
Proof.
  intros Hp H. pose proof (known_ex _ _ n Hp) as Hk. destruct H.
  - now apply inf_cycle.
  - apply inf_unknown; [assumption|]. now rewrite <- Hk.
  - apply inf_hash; [assumption|now apply Hk|now apply hfm].
  - eapply inf_args; [assumption|now apply Hk|apply hm; eassumption|now apply asfm].
Qed.
(** ** Failures *)
Lemma err_exchange nm :
  (forall scs act pb s e i o err, item_err w nm scs act pb s e i o err -> forall k pb2, pb_ex pb pb2 -> inside i k -> item_err w' nm scs act pb2 s e k o err)
  /\ (forall scs act pb s e l o err, items_err w nm scs act pb s e l o err -> forall l' pb2, pb_ex pb pb2 -> Forall2 exch l l' -> items_err w' nm scs act pb2 s e l' o err)
  /\ (forall its scs act pb s e l o err, rounds_err w nm its scs act pb s e l o err -> forall l' pb2, pb_ex pb pb2 -> Forall2 exch l l' -> rounds_err w' nm its scs act pb2 s e l' o err)
  /\ (forall scs act pb bs m' o err, else_err w nm scs act pb bs m' o err -> forall bs' pb2, pb_ex pb pb2 -> Forall2 br_ex bs bs' -> else_err w' nm scs act pb2 bs' m' o err)
  /\ (forall act pb m body bs m' cur l o err, steps_err w nm act pb m body bs m' cur l o err -> True).
Proof.
  apply err_ex; intros; try exact I;
    try match goal with H : inside (IBlock _ _ _ _ _ _) _ |- _ => destruct H as (body' & bs' & -> & Hbody & Hbs) end;
    try match goal with H : inside _ _ |- _ => cbn in H; subst end;
    try (econstructor;
         first [eassumption | apply cm; eassumption | apply called_move; eassumption | apply helper_move; eassumption | apply hcm; eassumption | apply cfm; eassumption | eapply include_ex; eassumption | apply block_arg_move; eassumption | idtac]; fail).
  - src. eapply ie_partial; [eassumption|eassumption|eassumption|apply partial_args_move; eassumption|eauto].
  - src. eapply ie_dyn_partial; [apply cm; eassumption|eassumption|eassumption|eassumption|apply partial_args_move; eassumption|eauto].
  - apply ie_partial_block_enter. eapply include_ex; [|eassumption]. exact Hbody.
  - src. eapply ie_partial_block; [eassumption|eassumption|apply partial_args_move; eassumption|eauto].
  - eapply ie_if; [apply block_arg_move; eassumption|assumption|rewrite (br_next _ _ _ Hbs); eauto].
  - eapply ie_if_else; [apply block_arg_move; eassumption|assumption|eauto].
  - eapply ie_unless; [apply block_arg_move; eassumption|assumption|rewrite (br_next _ _ _ Hbs); eauto].
  - eapply ie_unless_else; [apply block_arg_move; eassumption|assumption|eauto].
  - eapply ie_with; [apply block_arg_move; eassumption|assumption|rewrite (br_next _ _ _ Hbs); eauto].
  - eapply ie_each; [apply block_arg_move; eassumption|eassumption|rewrite (br_next _ _ _ Hbs); eauto].
  - eapply ie_block; [eassumption|eassumption|eassumption|rewrite (br_next _ _ _ Hbs); eauto].
  - match goal with Hby : block_by _ _ _ _ _ _ |- _ => pose proof Hby as Hby2 end. destruct (own_err w plain_helpers (cl_block_missing w Hclosed) nm scs act pb n xs hs m body bs m' name f prop vs pairs ps l v out err) as (-> & Hcl); [eassumption..|]. destruct Hby2.
    + eapply ie_block_helper; [eassumption|apply hcm; eassumption].
    + eapply ie_block_handler; [eassumption|eassumption|eassumption|apply hcm; eassumption].
  - match goal with H : Forall2 _ (_ :: _) _ |- _ => inversion H as [|? j ? l2 Hij Hl]; subst end. destruct (exch_split _ _ Hij) as (k & Hk & Em).
    apply err_here. rewrite (exch_next _ _ _ Hl). apply Em. eauto.
  - match goal with H : Forall2 _ (_ :: _) _ |- _ => inversion H as [|? j ? l2 Hij Hl]; subst end. destruct (exch_split _ _ Hij) as (k & Hk & Em).
    match goal with H : item_out w _ _ _ _ _ _ _ _ |- _ => destruct (item_exchange _ _ _ _ _ _ _ _ H k pb2 ltac:(assumption) Hk) as (q & Q & R) end.
    eapply err_later; [rewrite (exch_next _ _ _ Hl); apply Em; exact R|rewrite (exch_after _ _ Hij); eauto].
  - apply round_here. eauto.
  - match goal with H : items_out w _ _ _ _ _ _ _ _ |- _ => destruct (items_exchange _ _ _ _ _ _ _ _ H l' pb2) as (q & Q & R); [assumption..|] end. eapply round_later; eauto.
  - apply else_err_cond. eapply cond_breaks_ex; eassumption.
  - match goal with H : else_branch w _ _ _ _, Hb : Forall2 br_ex _ _ |- _ => destruct (else_branch_ex _ _ _ _ _ Hb H) as (r' & Hr1 & Hr2) end.
    destruct r' as [[b' post']|]; [|destruct Hr2]. destruct Hr2 as [(_ & E2 & E3) E4]. eapply else_err_body; [exact Hr1|]. rewrite <- E2, (br_next _ _ _ E4). eauto.
Qed.
Definition items_err_exchange nm := proj1 (proj2 (err_exchange nm)).
End exchange.
