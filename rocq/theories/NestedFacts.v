(** * NestedFacts: with fewer calls in progress a document writes the same and fails in the same way (for C84). *)
From Coq Require Import Lia String.
From Verif Require Import Str Lexer Json Ast Parser Render Helpers Registry StrFacts Spec_Lexer Spec_Values Spec_Helpers Spec_Blocks Spec_Calls Spec_Source Spec_Sem Spec_Fail Spec_Nested CycleFacts ExchangeFacts.
Open Scope nat_scope. Open Scope list_scope.

Definition fewer (act act' : list site) : Prop := (forall s, count_site s act' <= count_site s act) /\ (forall q, In (SPartial q) act' -> In (SPartial q) act).
Lemma fewer_cons s act act' : fewer act act' -> fewer (s :: act) (s :: act').
Proof.
  intros (H1 & H2). split.
  - intros t. cbn [count_site]. specialize (H1 t). destruct (site_eq s t); lia.
  - intros q. cbn [In]. intros [X|X]; [now left|right; now apply H2].
Qed.
Lemma fewer_nil act : fewer act [].
Proof. split; [intros s; cbn; lia|intros q []]. Qed.
Lemma fewer_count s act act' : fewer act act' -> count_site s act < 32 -> count_site s act' < 32.
Proof. intros (H & _). specialize (H s). lia. Qed.
Lemma fewer_out act act' q : fewer act act' -> ~ In (SPartial q) act -> ~ In (SPartial q) act'.
Proof. intros (_ & H) X Y. exact (X (H q Y)). Qed.

Section Fewer.
Variable w : world.
Lemma values_few scs : forall act,
  (forall x v, arg_value w scs act x v -> forall act', fewer act act' -> arg_value w scs act' x v)
  /\ (forall xs vs, args_value w scs act xs vs -> forall act', fewer act act' -> args_value w scs act' xs vs)
  /\ (forall hs ps, hash_value w scs act hs ps -> forall act', fewer act act' -> hash_value w scs act' hs ps)
  /\ (forall c v, call_value w scs act c v -> forall act', fewer act act' -> call_value w scs act' c v).
Proof.
  apply (values_ex w scs (fun act x v => forall act', fewer act act' -> arg_value w scs act' x v) (fun act xs vs => forall act', fewer act act' -> args_value w scs act' xs vs)
    (fun act hs ps => forall act', fewer act act' -> hash_value w scs act' hs ps) (fun act c v => forall act', fewer act act' -> call_value w scs act' c v)); intros.
  all: try (constructor; auto; fail).
  eapply cv_helper; [eassumption|eapply fewer_count; eassumption|auto using fewer_cons|auto using fewer_cons|eassumption|eassumption].
Qed.
Lemma avf scs act act' x v : fewer act act' -> arg_value w scs act x v -> arg_value w scs act' x v.
Proof. intros B X. exact (proj1 (values_few scs act) x v X act' B). Qed.
Lemma asvf scs act act' xs vs : fewer act act' -> args_value w scs act xs vs -> args_value w scs act' xs vs.
Proof. intros B X. exact (proj1 (proj2 (values_few scs act)) xs vs X act' B). Qed.
Lemma hvf scs act act' hs ps : fewer act act' -> hash_value w scs act hs ps -> hash_value w scs act' hs ps.
Proof. intros B X. exact (proj1 (proj2 (proj2 (values_few scs act))) hs ps X act' B). Qed.
Lemma cvf scs act act' c v : fewer act act' -> call_value w scs act c v -> call_value w scs act' c v.
Proof. intros B X. exact (proj2 (proj2 (proj2 (values_few scs act))) c v X act' B). Qed.
Lemma helper_few scs act act' blk m f xs hs text prop p : fewer act act' -> helper_call w scs act blk m f xs hs text prop p -> helper_call w scs act' blk m f xs hs text prop p.
Proof.
  intros B (X & vs & pairs & ps & H1 & H2 & H3). pose proof (fewer_cons (site_of blk m) _ _ B). split; [eapply fewer_count; eassumption|].
  exists vs, pairs, ps. split; [eapply asvf; eassumption|]. split; [eapply hvf; eassumption|exact H3].
Qed.
Lemma fails_few nm scs :
  (forall act x e, arg_fails w nm scs act x e -> forall act', fewer act act' -> cyclic e \/ arg_fails w nm scs act' x e)
  /\ (forall act xs e, args_fail w nm scs act xs e -> forall act', fewer act act' -> cyclic e \/ args_fail w nm scs act' xs e)
  /\ (forall act hs e, hash_fails w nm scs act hs e -> forall act', fewer act act' -> cyclic e \/ hash_fails w nm scs act' hs e)
  /\ (forall act blk m f xs hs text prop e, helper_call_fails w nm scs act blk m f xs hs text prop e -> forall act', fewer act act' -> cyclic e \/ helper_call_fails w nm scs act' blk m f xs hs text prop e)
  /\ (forall act c e, call_fails w nm scs act c e -> forall act', fewer act act' -> cyclic e \/ call_fails w nm scs act' c e).
Proof.
  apply fails_ex; intros.
  all: try match goal with B : fewer ?act ?act', H : forall a, fewer ?act a -> _ \/ _ |- _ => destruct (H act' B) as [?|?]; [now left|right] end.
  all: try match goal with B : fewer ?act ?act', H : forall a, fewer (?x :: ?act) a -> _ \/ _ |- _ => destruct (H (x :: act') (fewer_cons x _ _ B)) as [?|?]; [now left|right] end.
  - now constructor.
  - now apply asf_here.
  - eapply asf_later; [eapply avf; eassumption|assumption].
  - eapply hf_one; [eapply hvf; eassumption|assumption|eapply hvf; eassumption].
  - left. left. eexists. reflexivity.
  - apply hc_arg; [eapply fewer_count; eassumption|assumption].
  - eapply hc_hash; [eapply fewer_count; eassumption|eapply asvf; [apply fewer_cons; eassumption|eassumption]|assumption].
  - right. apply hc_run. eapply helper_few; eassumption.
  - eapply cf_helper; eassumption.
  - right. apply cf_strict; assumption.
Qed.
Definition hff nm scs := proj1 (proj2 (proj2 (fails_few nm scs))).
Definition asff nm scs := proj1 (proj2 (fails_few nm scs)).
Definition hcf nm scs := proj1 (proj2 (proj2 (proj2 (fails_few nm scs)))).
Definition cff nm scs := proj2 (proj2 (proj2 (proj2 (fails_few nm scs)))).
Lemma block_arg_few scs act act' m x hs v : fewer act act' -> block_arg w scs act m x hs v -> block_arg w scs act' m x hs v.
Proof.
  intros B (H1 & H2 & H3 & pairs & ps & H4 & H5). pose proof (fewer_cons (SBlock m) _ _ B). split; [exact H1|]. split; [eapply fewer_count; eassumption|].
  split; [eapply avf; eassumption|]. exists pairs, ps. split; [eapply hvf; eassumption|exact H5].
Qed.
Lemma partial_args_few scs act act' q xs hs sc : fewer act act' -> partial_args w scs act q xs hs sc -> partial_args w scs act' q xs hs sc.
Proof. intros B (vs & pairs & ps & H1 & H2 & H3). pose proof (fewer_cons (SPartial q) _ _ B). exists vs, pairs, ps. split; [eapply asvf; eassumption|]. split; [eapply hvf; eassumption|exact H3]. Qed.
Lemma include_few nm scs act act' pb q xs hs e : fewer act act' -> include_fails w nm scs act pb q xs hs e -> cyclic e \/ include_fails w nm scs act' pb q xs hs e.
Proof.
  intros B X. pose proof (fewer_cons (SPartial q) _ _ B). destruct X as [X|X1 X2|err X1 X2 X3|pairs err X1 X2 X3 X4].
  - left. right. eexists. reflexivity.
  - right. apply inf_unknown; [eapply fewer_out; eassumption|assumption].
  - destruct (hff nm scs _ _ _ X3 _ H) as [?|?]; [now left|right]. apply inf_hash; [eapply fewer_out; eassumption|assumption|assumption].
  - destruct (asff nm scs _ _ _ X4 _ H) as [?|?]; [now left|right]. eapply inf_args; [eapply fewer_out; eassumption|assumption|eapply hvf; eassumption|assumption].
Qed.
Lemma conds_fail_few scs act act' bs : fewer act act' -> Forall (cond_fails w scs act) bs -> Forall (cond_fails w scs act') bs.
Proof. intros B. apply Forall_impl. intros b X c E. destruct (X c E) as (v & H1 & H2). exists v. split; [eapply cvf; eassumption|exact H2]. Qed.
Lemma else_few scs act act' bs r : fewer act act' -> else_branch w scs act bs r -> else_branch w scs act' bs r.
Proof.
  intros B X. destruct X as [pre b post c v E H1 H2 H3 H4|pre b post E H1 H2 H3|H1 H2].
  - eapply else_cond; try eassumption; [eapply conds_fail_few; eassumption|eapply cvf; eassumption].
  - eapply else_plain; try eassumption. eapply conds_fail_few; eassumption.
  - apply else_none; [eapply conds_fail_few; eassumption|assumption].
Qed.
Lemma cond_breaks_few nm scs act act' bs err : fewer act act' -> cond_breaks w nm scs act bs err -> cyclic err \/ cond_breaks w nm scs act' bs err.
Proof.
  intros B [pre b post c E H1 H2 H3]. destruct (cff nm scs _ _ _ H3 _ B) as [?|?]; [now left|right]. eapply cond_break; try eassumption. eapply conds_fail_few; eassumption.
Qed.
Ltac few := repeat first [eassumption|apply fewer_cons
  |match goal with |- call_value _ _ _ _ _ => eapply cvf; [|eassumption] | |- helper_call _ _ _ _ _ _ _ _ _ _ _ => eapply helper_few; [|eassumption]
    | |- block_arg _ _ _ _ _ _ _ => eapply block_arg_few; [|eassumption] | |- partial_args _ _ _ _ _ _ _ => eapply partial_args_few; [|eassumption]
    | |- count_site _ _ < 32 => eapply fewer_count; [|eassumption] | |- ~ In (SPartial _) _ => eapply fewer_out; [|eassumption]
    | |- else_branch _ _ _ _ _ => eapply else_few; [|eassumption] | |- args_value _ _ _ _ _ => eapply asvf; [|eassumption] | |- hash_value _ _ _ _ _ => eapply hvf; [|eassumption] end
  |match goal with H : forall a, fewer _ a -> ?P _ |- _ => apply H end].
Theorem out_few :
  (forall scs act pb pb' s e i out, item_out w scs act pb pb' s e i out -> forall act', fewer act act' -> item_out w scs act' pb pb' s e i out)
  /\ (forall scs act pb pb' s e l out, items_out w scs act pb pb' s e l out -> forall act', fewer act act' -> items_out w scs act' pb pb' s e l out)
  /\ (forall its scs act pb pb' s e l out, rounds_out w its scs act pb pb' s e l out -> forall act', fewer act act' -> rounds_out w its scs act' pb pb' s e l out)
  /\ (forall scs act pb pb' m' r out, else_out w scs act pb pb' m' r out -> forall act', fewer act act' -> else_out w scs act' pb pb' m' r out)
  /\ (forall scs act pb pb' m body bs m' cur l out, steps_out w scs act pb pb' m body bs m' cur l out -> forall act', fewer act act' -> steps_out w scs act' pb pb' m body bs m' cur l out).
Proof.
  apply (out_ex w); intros.
  all: try match goal with B : fewer ?act ?act', H : forall a, fewer (?x :: ?act) a -> _ |- _ => specialize (H (x :: act') (fewer_cons x _ _ B)) end.
  all: repeat match goal with B : fewer ?act ?act', H : forall a, fewer ?act a -> _ |- _ => specialize (H act' B) end.
  all: try (econstructor; few; fail).
Qed.
Theorem err_few nm :
  (forall scs act pb s e i out err, item_err w nm scs act pb s e i out err -> forall act', fewer act act' -> cyclic err \/ item_err w nm scs act' pb s e i out err)
  /\ (forall scs act pb s e l out err, items_err w nm scs act pb s e l out err -> forall act', fewer act act' -> cyclic err \/ items_err w nm scs act' pb s e l out err)
  /\ (forall its scs act pb s e l out err, rounds_err w nm its scs act pb s e l out err -> forall act', fewer act act' -> cyclic err \/ rounds_err w nm its scs act' pb s e l out err)
  /\ (forall scs act pb bs m' out err, else_err w nm scs act pb bs m' out err -> forall act', fewer act act' -> cyclic err \/ else_err w nm scs act' pb bs m' out err)
  /\ (forall act pb m body bs m' cur l out err, steps_err w nm act pb m body bs m' cur l out err -> forall act', fewer act act' -> cyclic err \/ steps_err w nm act' pb m body bs m' cur l out err).
Proof.
  destruct out_few as (O1 & O2 & _ & O4 & _).
  apply (err_ex w nm); intros.
  all: try match goal with B : fewer ?act ?act', H : forall a, fewer (?x :: ?act) a -> _ \/ _ |- _ => destruct (H (x :: act') (fewer_cons x _ _ B)) as [?|?]; [now left|right] end.
  all: try match goal with B : fewer ?act ?act', H : forall a, fewer ?act a -> _ \/ _ |- _ => destruct (H act' B) as [?|?]; [now left|right] end.
  all: try match goal with B : fewer ?act ?act', H : call_fails _ _ _ ?act _ _ |- _ => destruct (cff _ _ _ _ _ H act' B) as [?|?]; [now left|right] end.
  all: try match goal with B : fewer ?act ?act', H : helper_call_fails _ _ _ ?act _ _ _ _ _ _ _ _ |- _ => destruct (hcf _ _ _ _ _ _ _ _ _ _ _ H act' B) as [?|?]; [now left|right] end.
  all: try match goal with B : fewer ?act ?act', H : include_fails _ _ _ ?act _ _ _ _ _ |- _ => destruct (include_few _ _ _ _ _ _ _ _ _ B H) as [?|?]; [now left|right] end.
  all: try match goal with B : fewer ?act ?act', H : cond_breaks _ _ _ ?act _ _ |- _ => destruct (cond_breaks_few _ _ _ _ _ _ B H) as [?|?]; [now left|right] end.
  all: try match goal with B : fewer ?act ?act', H : item_out _ _ ?act _ _ _ _ _ _ |- _ => pose proof (O1 _ _ _ _ _ _ _ _ H _ B) end.
  all: try match goal with B : fewer ?act ?act', H : items_out _ _ ?act _ _ _ _ _ _ |- _ => pose proof (O2 _ _ _ _ _ _ _ _ H _ B) end.
  all: try match goal with B : fewer ?act ?act', H : else_out _ _ ?act _ _ _ _ _ |- _ => pose proof (O4 _ _ _ _ _ _ _ H _ B) end.
  all: try (econstructor; few; fail).
  all: try (right; econstructor; few; fail).
  left. left. eexists. reflexivity.
Qed.
End Fewer.
