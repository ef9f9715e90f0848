(** * UnusedFacts: proofs for C79 *)
From Coq Require Import Lia String.
From Verif Require Import Str Lexer Json Ast Parser Render Helpers Registry StrFacts Spec_Lexer Spec_Values Spec_Helpers Spec_Blocks Spec_Calls Spec_Source Spec_Sem Spec_Fail Spec_Total Spec_Unused ExchangeFacts.
Open Scope nat_scope. Open Scope list_scope.

Section Move.
Variables (pl : plat) (reg : registry) (hs' : list (str * helper)) (data : json) (docs : list (str * list item)) (n0 : str).
Let w := mkWorld pl reg data docs.
Let w' := mkWorld pl (set_helpers hs' reg) data docs.
Hypothesis Hh : forall m, m <> n0 -> assoc m hs' = assoc m (rg_helpers reg).

Lemma name_text m : path_text (HdName m) [] = m.
Proof. unfold path_text. cbn. apply app_nil_r. Qed.
Lemma not_name x : negb (streq x n0) = true -> x <> n0.
Proof. intros H ->. rewrite streq_refl in H. discriminate H. Qed.
Lemma helper_same m v : m <> n0 -> assoc m (rg_helpers (w_reg w)) = v -> assoc m (rg_helpers (w_reg w')) = v.
Proof. intros H <-. exact (Hh m H). Qed.
Lemma called_move scs h t n f : path_text h t <> n0 -> called w scs h t n f -> called w' scs h t n f.
Proof.
  intros N H. destruct H as [m f Hm H|m f Hm H H1 H2]; [apply called_helper|eapply called_missing]; try eassumption; apply helper_same; try assumption; destruct Hm as (_ & -> & _); exact N.
Qed.
Lemma not_helper_move h t : path_text h t <> n0 -> not_helper w h t -> not_helper w' h t.
Proof. intros N H m Hm. apply helper_same; [destruct Hm as (_ & -> & _); exact N|exact (H m Hm)]. Qed.
Lemma standard_move n : n <> n0 -> standard w n -> standard w' n.
Proof. intros N (h & H1 & H2). exists h. split; [exact H1|]. now apply helper_same. Qed.
Lemma call_split h t xs hs : call_not n0 (Call h t xs hs) = true -> path_text h t <> n0 /\ forallb (expr_not n0) xs = true /\ forallb (fun kx => expr_not n0 (snd kx)) hs = true.
Proof. cbn [call_not]. intros H. apply andb_prop in H. destruct H as [H H3]. apply andb_prop in H. destruct H as [H1 H2]. split; [now apply not_name|auto]. Qed.
Lemma values_move scs act :
  (forall x v, arg_value w scs act x v -> expr_not n0 x = true -> arg_value w' scs act x v)
  /\ (forall xs vs, args_value w scs act xs vs -> forallb (expr_not n0) xs = true -> args_value w' scs act xs vs)
  /\ (forall hs ps, hash_value w scs act hs ps -> forallb (fun kx => expr_not n0 (snd kx)) hs = true -> hash_value w' scs act hs ps)
  /\ (forall c v, call_value w scs act c v -> call_not n0 c = true -> call_value w' scs act c v).
Proof.
  apply (values_ex w scs (fun act x v => expr_not n0 x = true -> arg_value w' scs act x v) (fun act xs vs => forallb (expr_not n0) xs = true -> args_value w' scs act xs vs)
    (fun act hs ps => forallb (fun kx => expr_not n0 (snd kx)) hs = true -> hash_value w' scs act hs ps) (fun act c v => call_not n0 c = true -> call_value w' scs act c v)); intros; try (econstructor; eauto; fail).
  - cbn [forallb] in *. match goal with H : _ && _ = true |- _ => apply andb_prop in H; destruct H end. constructor; auto.
  - cbn [forallb snd] in *. match goal with H : _ && _ = true |- _ => apply andb_prop in H; destruct H end. constructor; auto.
  - match goal with H : call_not _ _ = true |- _ => destruct (call_split _ _ _ _ H) as (? & ? & ?) end. eapply cv_helper; eauto. now apply called_move.
  - match goal with H : call_not _ _ = true |- _ => destruct (call_split _ _ _ _ H) as (? & ? & ?) end. apply cv_variable; [now apply not_helper_move|assumption].
  - match goal with H : call_not _ _ = true |- _ => destruct (call_split _ _ _ _ H) as (? & ? & ?) end. apply cv_missing; [now apply not_helper_move|assumption|assumption].
Qed.
Definition am scs act := proj1 (values_move scs act).
Definition asm scs act := proj1 (proj2 (values_move scs act)).
Definition hm scs act := proj1 (proj2 (proj2 (values_move scs act))).
Definition cm scs act := proj2 (proj2 (proj2 (values_move scs act))).
Lemma args_split xs hs : args_not n0 xs hs = true -> forallb (expr_not n0) xs = true /\ forallb (fun kx => expr_not n0 (snd kx)) hs = true.
Proof. apply andb_prop. Qed.
Lemma helper_move scs act blk n f xs hs text prop p : args_not n0 xs hs = true -> helper_call w scs act blk n f xs hs text prop p -> helper_call w' scs act blk n f xs hs text prop p.
Proof.
  intros N (H & vs & pairs & ps & H1 & H2 & H3 & H4). destruct (args_split _ _ N). split; [exact H|]. exists vs, pairs, ps. split; [apply asm; assumption|]. split; [apply hm; assumption|]. split; assumption.
Qed.
Lemma args_of h t xs hs : call_not n0 (Call h t xs hs) = true -> args_not n0 xs hs = true.
Proof. intros H. destruct (call_split _ _ _ _ H) as (_ & H1 & H2). unfold args_not. now rewrite H1, H2. Qed.
Lemma fails_move nm scs :
  (forall act x e, arg_fails w nm scs act x e -> expr_not n0 x = true -> arg_fails w' nm scs act x e)
  /\ (forall act xs e, args_fail w nm scs act xs e -> forallb (expr_not n0) xs = true -> args_fail w' nm scs act xs e)
  /\ (forall act hs e, hash_fails w nm scs act hs e -> forallb (fun kx => expr_not n0 (snd kx)) hs = true -> hash_fails w' nm scs act hs e)
  /\ (forall act blk n f xs hs text prop e, helper_call_fails w nm scs act blk n f xs hs text prop e -> args_not n0 xs hs = true -> helper_call_fails w' nm scs act blk n f xs hs text prop e)
  /\ (forall act c e, call_fails w nm scs act c e -> call_not n0 c = true -> call_fails w' nm scs act c e).
Proof.
  apply fails_ex; intros.
  - constructor. auto.
  - cbn [forallb] in *. match goal with H : _ && _ = true |- _ => apply andb_prop in H; destruct H end. apply asf_here. auto.
  - cbn [forallb] in *. match goal with H : _ && _ = true |- _ => apply andb_prop in H; destruct H end. eapply asf_later; [apply am; eassumption|auto].
  - match goal with H : forallb _ (_ ++ _) = true |- _ => rewrite forallb_app in H; cbn [forallb snd] in H; apply andb_prop in H; destruct H as [? H]; apply andb_prop in H; destruct H end. eapply hf_one; [apply hm; eassumption|auto|apply hm; eassumption].
  - now apply hc_cycle.
  - apply hc_arg; [assumption|]. match goal with H : args_not _ _ _ = true |- _ => destruct (args_split _ _ H) end. auto.
  - match goal with H : args_not _ _ _ = true |- _ => destruct (args_split _ _ H) end. eapply hc_hash; [assumption|apply asm; eassumption|auto].
  - apply hc_run. now apply helper_move.
  - eapply cf_helper; [apply called_move; [apply (call_split h t xs hs)|]; eassumption|]. match goal with H : args_not _ _ _ = true -> _ |- _ => apply H end. eapply args_of; eassumption.
  - apply cf_strict; auto. apply not_helper_move; [apply (call_split h t xs hs)|]; assumption.
Qed.
Definition afm nm scs := proj1 (fails_move nm scs).
Definition asfm nm scs := proj1 (proj2 (fails_move nm scs)).
Definition hfm nm scs := proj1 (proj2 (proj2 (fails_move nm scs))).
Definition hcm nm scs := proj1 (proj2 (proj2 (proj2 (fails_move nm scs)))).
Definition cfm nm scs := proj2 (proj2 (proj2 (proj2 (fails_move nm scs)))).
Lemma ho_move s e p out : helper_out w s e p out -> helper_out w' s e p out.
Proof. intros H. induction H; [apply ho_value|]. apply (ho_writes w' s e x esc y ws v out); assumption. Qed.
Lemma block_arg_move scs act n x hs v : n <> n0 -> args_not n0 [x] hs = true -> block_arg w scs act n x hs v -> block_arg w' scs act n x hs v.
Proof.
  intros N A (H1 & H2 & H3 & pairs & ps & H4 & H5). destruct (args_split _ _ A) as (A1 & A2). cbn in A1. rewrite andb_true_r in A1. split; [now apply standard_move|]. split; [exact H2|]. split; [apply am; assumption|]. exists pairs, ps. split; [apply hm; assumption|exact H5].
Qed.
Lemma partial_args_move scs act n xs hs sc : args_not n0 xs hs = true -> partial_args w scs act n xs hs sc -> partial_args w' scs act n xs hs sc.
Proof. intros A (vs & pairs & ps & H1 & H2 & H3 & H4). destruct (args_split _ _ A). exists vs, pairs, ps. split; [apply asm; assumption|]. split; [apply hm; assumption|]. split; assumption. Qed.
Lemma include_move nm scs act pb n xs hs e : args_not n0 xs hs = true -> include_fails w nm scs act pb n xs hs e -> include_fails w' nm scs act pb n xs hs e.
Proof.
  intros A H. destruct (args_split _ _ A). destruct H; [now apply inf_cycle|now apply inf_unknown|apply inf_hash; try assumption; now apply hfm|eapply inf_args; try eassumption; [apply hm|apply asfm]; eassumption].
Qed.

Definition branch_not (b : branch) : bool := match fst (fst b) with Some c => call_not n0 c | None => true end && forallb (item_not n0) (snd b).
Definition pb_not (pb : option (list item)) : Prop := match pb with Some l => forallb (item_not n0) l = true | None => True end.
Hypothesis Hd : forall n d, assoc n docs = Some d -> forallb (item_not n0) d = true.
Lemma source_not pb n d : pb_not pb -> partial_source w pb n d -> forallb (item_not n0) d = true.
Proof. intros Hp [(_ & ->)|(_ & H)]; [exact Hp|exact (Hd _ _ H)]. Qed.
Lemma block_split p h t xs hs m body bs m' : item_not n0 (IBlock p (Call h t xs hs) m body bs m') = true ->
  (p = false -> path_text h t <> n0) /\ args_not n0 xs hs = true /\ forallb (item_not n0) body = true /\ forallb branch_not bs = true.
Proof.
  cbn [item_not]. intros H. apply andb_prop in H. destruct H as [H H4]. apply andb_prop in H. destruct H as [H H3]. apply andb_prop in H. destruct H as [H1 H2].
  split; [|auto]. intros ->. now apply not_name.
Qed.
Lemma stmt_split tr m p h t xs hs : item_not n0 (ICall tr m p (Call h t xs hs)) = true -> (p = false -> call_not n0 (Call h t xs hs) = true /\ path_text h t <> n0) /\ args_not n0 xs hs = true.
Proof.
  cbn [item_not]. intros H. apply andb_prop in H. destruct H as [H1 H2]. split; [|exact H2]. intros ->. cbn [orb] in H1. split; [|now apply not_name]. cbn [call_not]. rewrite H1. exact H2.
Qed.
Lemma stmt_call tr m c : item_not n0 (ICall tr m false c) = true -> call_not n0 c = true.
Proof. destruct c as [h t xs hs]. intros H. exact (proj1 (proj1 (stmt_split _ _ _ _ _ _ _ H) eq_refl)). Qed.
Lemma dyn_split tr m p c xs hs : item_not n0 (IDyn tr m p c xs hs) = true -> call_not n0 c = true /\ args_not n0 xs hs = true.
Proof. apply andb_prop. Qed.
Lemma cond_fails_move scs act b : branch_not b = true -> cond_fails w scs act b -> cond_fails w' scs act b.
Proof.
  intros N H c E. destruct (H c E) as (v & H1 & H2). exists v. split; [apply cm; [exact H1|]|exact H2]. apply andb_prop in N. destruct N as [N _]. unfold br_cond in E. now rewrite E in N.
Qed.
Lemma conds_fail_move scs act bs : forallb branch_not bs = true -> Forall (cond_fails w scs act) bs -> Forall (cond_fails w' scs act) bs.
Proof. rewrite forallb_forall, !Forall_forall. intros N H b Hb. apply cond_fails_move; auto. Qed.
Lemma else_move scs act bs r : forallb branch_not bs = true -> else_branch w scs act bs r -> else_branch w' scs act bs r.
Proof.
  intros N H. destruct H as [pre b post c v E H1 H2 H3 H4|pre b post E H1 H2 H3|H1 H2].
  - subst bs. rewrite forallb_app in N. apply andb_prop in N. destruct N as [N1 N2]. cbn [forallb] in N2. apply andb_prop in N2. destruct N2 as [N2 _].
    eapply else_cond; [reflexivity|apply conds_fail_move; assumption|exact H2| |exact H4]. apply cm; [exact H3|]. apply andb_prop in N2. destruct N2 as [N2 _]. unfold br_cond in H2. now rewrite H2 in N2.
  - eapply else_plain; try eassumption. now apply conds_fail_move.
  - apply else_none; [now apply conds_fail_move|assumption].
Qed.
Lemma else_not scs act bs b post : forallb branch_not bs = true -> else_branch w scs act bs (Some (b, post)) -> forallb (item_not n0) (br_body b) = true.
Proof.
  intros N H. rewrite forallb_forall in N. assert (X : In b bs) by (inversion H; subst; apply in_or_app; right; left; reflexivity). specialize (N b X). apply andb_prop in N. exact (proj2 N).
Qed.

Lemma block_by_move scs n name f prop : n <> n0 -> block_by w scs n name f prop -> block_by w' scs n name f prop.
Proof. intros N [g H1 H2|g v H1 H2 H3]; [apply by_helper; [now apply helper_same|exact H2]|apply by_handler; [now apply helper_same|exact H2|exact H3]]. Qed.
Theorem out_move :
  (forall scs act pb pb' s e i out, item_out w scs act pb pb' s e i out -> item_not n0 i = true -> pb_not pb -> item_out w' scs act pb pb' s e i out /\ pb_not pb')
  /\ (forall scs act pb pb' s e l out, items_out w scs act pb pb' s e l out -> forallb (item_not n0) l = true -> pb_not pb -> items_out w' scs act pb pb' s e l out /\ pb_not pb')
  /\ (forall its scs act pb pb' s e l out, rounds_out w its scs act pb pb' s e l out -> forallb (item_not n0) l = true -> pb_not pb -> rounds_out w' its scs act pb pb' s e l out /\ pb_not pb')
  /\ (forall scs act pb pb' m' r out, else_out w scs act pb pb' m' r out -> (forall b post, r = Some (b, post) -> forallb (item_not n0) (br_body b) = true) -> pb_not pb -> else_out w' scs act pb pb' m' r out /\ pb_not pb')
  /\ (forall scs act pb pb' m body bs m' cur l out, steps_out w scs act pb pb' m body bs m' cur l out -> forallb (item_not n0) body = true -> forallb branch_not bs = true -> pb_not pb -> steps_out w' scs act pb pb' m body bs m' cur l out /\ pb_not pb').
Proof.
  apply (out_ex w); intros.
  all: try match goal with H : item_not _ (IBlock _ (Call _ _ _ _) _ _ _ _) = true |- _ => destruct (block_split _ _ _ _ _ _ _ _ _ H) as (? & ? & ? & ?) end.
  all: try match goal with H : item_not _ (ICall _ _ false ?c) = true |- _ => pose proof (stmt_call _ _ _ H) end.
  all: try match goal with H : item_not _ (ICall _ _ _ (Call _ _ _ _)) = true |- _ => destruct (stmt_split _ _ _ _ _ _ _ H) as (? & ?) end.
  all: try match goal with H : item_not _ (IDyn _ _ _ _ _ _) = true |- _ => destruct (dyn_split _ _ _ _ _ _ H) as (? & ?) end.
  all: try match goal with H : item_not _ (IRaw (Call _ _ _ _) _ _ _) = true |- _ => pose proof (args_of _ _ _ _ H); destruct (call_split _ _ _ _ H) as (? & ? & ?) end.
  all: try match goal with H : false = false -> _ |- _ => specialize (H eq_refl) end.
  all: try match goal with H : call_not _ (Call _ _ _ _) = true |- _ => destruct (call_split _ _ _ _ H) as (? & ? & ?); pose proof (args_of _ _ _ _ H) end.
  all: try match goal with H : path_text (HdName _) [] <> _ |- _ => rewrite name_text in H end.
  all: try (match goal with H : forallb _ _ = true -> pb_not _ -> item_out _ _ _ _ _ _ _ _ _ /\ _ |- _ => idtac | H : forallb _ _ = true -> pb_not _ -> _ |- _ => let X := fresh in assert (X := H ltac:(first [assumption|eapply source_not; [|eassumption]; assumption]) ltac:(assumption)); clear H; destruct X as (? & ?) end).
  all: try (match goal with H : (forall b post, _ -> _) -> pb_not _ -> _, E : else_branch _ _ _ _ _ |- _ => let X := fresh in assert (X := H ltac:(intros ? ? ->; eapply else_not; [|exact E]; assumption) ltac:(assumption)); clear H; destruct X as (? & ?) end).
  all: try (split; [|assumption]).
  all: try change (rg_escape (w_reg w)) with (rg_escape (w_reg w')).
  all: try (constructor; fail).
  all: try (econstructor; eassumption).
  - eapply io_value; [eapply cm; eassumption|eassumption|assumption].
  - eapply io_missing. now apply cm.
  - eapply io_print; [eapply called_move; eassumption|apply helper_move; eassumption|now apply ho_move].
  - eapply io_print_value; [eapply called_move; eassumption|apply helper_move; eassumption|now apply ho_move|eassumption|assumption].
  - eapply io_dyn_value; [eapply cm; eassumption|eassumption|assumption].
  - eapply io_dyn_missing. now apply cm.
  - eapply io_dyn_print; [eapply called_move; eassumption|apply helper_move; eassumption|now apply ho_move].
  - eapply io_dyn_print_value; [eapply called_move; eassumption|apply helper_move; eassumption|now apply ho_move|eassumption|assumption].
  - eapply io_link_handler; try eassumption. now apply ho_move.
  - eapply io_raw; [apply helper_same; eassumption|eassumption|assumption].
  - eapply io_raw_helper; [apply helper_same; eassumption|eassumption|apply helper_move; eassumption|now apply ho_move].
  - eapply io_partial; try eassumption. now apply partial_args_move.
  - eapply io_dyn_partial; try eassumption; [now apply cm|now apply partial_args_move].
  - eapply io_partial_block; try eassumption. now apply partial_args_move.
  - eapply io_if; [apply block_arg_move|..]; eassumption.
  - eapply io_if_else; [apply block_arg_move|..]; try eassumption. now apply else_move.
  - eapply io_unless; [apply block_arg_move|..]; eassumption.
  - eapply io_unless_else; [apply block_arg_move|..]; try eassumption. now apply else_move.
  - eapply io_with; [apply block_arg_move|..]; eassumption.
  - eapply io_with_null. now apply block_arg_move.
  - eapply io_each; [apply block_arg_move|..]; eassumption.
  - eapply io_block; try eassumption. now apply helper_same.
  - eapply io_block_missing; try eassumption. now apply helper_same.
  - eapply io_block_helper; [apply helper_same; eassumption|apply helper_move; eassumption|now apply ho_move].
  - eapply io_block_handler; [apply helper_same; eassumption|eassumption|eassumption|apply helper_move; eassumption|now apply ho_move].
  - eapply io_block_missing_handler; [apply helper_same; eassumption|eassumption|eassumption|apply helper_move; eassumption|now apply ho_move].
  - match goal with H : forallb _ body = true -> forallb _ bs = true -> pb_not pb -> _ |- _ => destruct (H ltac:(assumption) ltac:(assumption) ltac:(assumption)) as (? & ?) end. split; [|assumption].
    match goal with H : args_not _ _ _ = true |- _ => destruct (args_split _ _ H) end.
    eapply io_own; [eapply block_by_move; [|eassumption]; assumption|eassumption|apply asm; eassumption|apply hm; eassumption|eassumption|eassumption|eassumption|eassumption].
  - cbn [forallb] in *. match goal with H : _ && _ = true |- _ => apply andb_prop in H; destruct H end. 
    match goal with H1 : item_not _ i = true -> pb_not pb -> _, H2 : forallb _ l = true -> pb_not pb1 -> _ |- _ => destruct (H1 ltac:(assumption) ltac:(assumption)) as (? & ?); destruct (H2 ltac:(assumption) ltac:(assumption)) as (? & ?) end. split; [econstructor; eassumption|assumption].
  - match goal with H2 : forallb _ l = true -> pb_not pb1 -> _ |- _ => destruct (H2 ltac:(assumption) ltac:(assumption)) as (? & ?) end. split; [econstructor; eassumption|assumption].
  - match goal with H : forallb _ _ = true -> pb_not _ -> _, H1 : forall b post, _ -> _ |- _ => destruct (H (H1 _ _ eq_refl) ltac:(assumption)) as (? & ?) end. split; [constructor; assumption|assumption].
  - match goal with H : forallb _ body = true -> forallb _ bs = true -> pb_not pb -> _ |- _ => destruct (H ltac:(assumption) ltac:(assumption) ltac:(assumption)) as (? & ?) end. split; [|assumption]. now apply steps_say.
  - match goal with H : forallb _ body = true -> forallb _ bs = true -> pb_not pb -> _ |- _ => destruct (H ltac:(assumption) ltac:(assumption) ltac:(assumption)) as (? & ?) end. split; [|assumption]. now apply steps_put.
  - match goal with H : forallb _ body = true -> forallb _ bs = true -> pb_not pb1 -> _ |- _ => destruct (H ltac:(assumption) ltac:(assumption) ltac:(assumption)) as (? & ?) end. split; [|assumption]. eapply steps_show; eassumption.
  - match goal with H : forallb _ body = true -> forallb _ bs = true -> pb_not pb1 -> _ |- _ => destruct (H ltac:(assumption) ltac:(assumption) ltac:(assumption)) as (? & ?) end. split; [|assumption]. eapply steps_else; [apply else_move; eassumption|eassumption|eassumption].
  - match goal with H : forallb _ body = true -> forallb _ bs = true -> pb_not pb -> _ |- _ => destruct (H ltac:(assumption) ltac:(assumption) ltac:(assumption)) as (? & ?) end. split; [|assumption]. now apply steps_enter.
  - match goal with H : forallb _ body = true -> forallb _ bs = true -> pb_not pb -> _ |- _ => destruct (H ltac:(assumption) ltac:(assumption) ltac:(assumption)) as (? & ?) end. split; [|assumption]. now apply steps_alter.
  - match goal with H : forallb _ body = true -> forallb _ bs = true -> pb_not pb -> _ |- _ => destruct (H ltac:(assumption) ltac:(assumption) ltac:(assumption)) as (? & ?) end. split; [|assumption]. now apply steps_leave.
Qed.
Lemma cond_breaks_move nm scs act bs err : forallb branch_not bs = true -> cond_breaks w nm scs act bs err -> cond_breaks w' nm scs act bs err.
Proof.
  intros N [pre b post c -> H1 H2 H3]. rewrite forallb_app in N. apply andb_prop in N. destruct N as [N1 N2]. cbn [forallb] in N2. apply andb_prop in N2. destruct N2 as [N2 _].
  eapply cond_break; [reflexivity|apply conds_fail_move; assumption|exact H2|]. apply cfm; [exact H3|]. apply andb_prop in N2. destruct N2 as [N2 _]. unfold br_cond in H2. now rewrite H2 in N2.
Qed.
Theorem err_move nm :
  (forall scs act pb s e i out err, item_err w nm scs act pb s e i out err -> item_not n0 i = true -> pb_not pb -> item_err w' nm scs act pb s e i out err)
  /\ (forall scs act pb s e l out err, items_err w nm scs act pb s e l out err -> forallb (item_not n0) l = true -> pb_not pb -> items_err w' nm scs act pb s e l out err)
  /\ (forall its scs act pb s e l out err, rounds_err w nm its scs act pb s e l out err -> forallb (item_not n0) l = true -> pb_not pb -> rounds_err w' nm its scs act pb s e l out err)
  /\ (forall scs act pb bs m' out err, else_err w nm scs act pb bs m' out err -> forallb branch_not bs = true -> pb_not pb -> else_err w' nm scs act pb bs m' out err)
  /\ (forall act pb m body bs m' cur l out err, steps_err w nm act pb m body bs m' cur l out err -> forallb (item_not n0) body = true -> forallb branch_not bs = true -> pb_not pb -> steps_err w' nm act pb m body bs m' cur l out err).
Proof.
  destruct out_move as (O1 & O2 & _ & O4 & _).
  apply (err_ex w nm); intros.
  all: try match goal with H : item_not _ (IBlock _ (Call _ _ _ _) _ _ _ _) = true |- _ => destruct (block_split _ _ _ _ _ _ _ _ _ H) as (? & ? & ? & ?) end.
  all: try match goal with H : item_not _ (ICall _ _ false ?c) = true |- _ => pose proof (stmt_call _ _ _ H) end.
  all: try match goal with H : item_not _ (ICall _ _ _ (Call _ _ _ _)) = true |- _ => destruct (stmt_split _ _ _ _ _ _ _ H) as (? & ?) end.
  all: try match goal with H : item_not _ (IDyn _ _ _ _ _ _) = true |- _ => destruct (dyn_split _ _ _ _ _ _ H) as (? & ?) end.
  all: try match goal with H : item_not _ (IRaw (Call _ _ _ _) _ _ _) = true |- _ => pose proof (args_of _ _ _ _ H); destruct (call_split _ _ _ _ H) as (? & ? & ?) end.
  all: try match goal with H : false = false -> _ |- _ => specialize (H eq_refl) end.
  all: try match goal with H : path_text (HdName _) [] <> _ |- _ => rewrite name_text in H end.
  all: try (match goal with H : partial_source _ ?pb _ _, H1 : forallb _ _ = true -> pb_not _ -> items_err _ _ _ _ _ _ _ _ _ _ |- _ => let X := fresh in assert (X := H1 ltac:(eapply source_not; [|exact H]; assumption) ltac:(assumption)); clear H1 end).
  all: try (match goal with H1 : forallb _ ?l = true -> pb_not ?pb -> _, H2 : forallb _ ?l = true, H3 : pb_not ?pb |- _ => specialize (H1 H2 H3) end).
  - apply ie_call. now apply cfm.
  - apply ie_dyn. now apply cfm.
  - eapply ie_link_cycle; eassumption.
  - eapply ie_link; eassumption.
  - eapply ie_raw; [apply helper_same; eassumption|eassumption|now apply hcm].
  - apply ie_partial_identifier; assumption.
  - eapply ie_partial_enter; [eassumption|now apply include_move].
  - eapply ie_partial; try eassumption. now apply partial_args_move.
  - eapply ie_dyn_enter; [apply cm; eassumption|eassumption|now apply include_move].
  - eapply ie_dyn_partial; try eassumption; [now apply cm|now apply partial_args_move].
  - eapply ie_partial_block_enter. now apply include_move.
  - eapply ie_partial_block; try eassumption. now apply partial_args_move.
  - eapply ie_block_helper; [apply helper_same; eassumption|now apply hcm].
  - eapply ie_if; [apply block_arg_move|..]; eassumption.
  - eapply ie_if_else; [apply block_arg_move|..]; eassumption.
  - eapply ie_unless; [apply block_arg_move|..]; eassumption.
  - eapply ie_unless_else; [apply block_arg_move|..]; eassumption.
  - eapply ie_with; [apply block_arg_move|..]; eassumption.
  - eapply ie_each; [apply block_arg_move|..]; eassumption.
  - eapply ie_block; try eassumption. now apply helper_same.
  - eapply ie_block_strict; try eassumption. now apply helper_same.
  - eapply ie_block_handler; [apply helper_same; eassumption|eassumption|eassumption|now apply hcm].
  - eapply ie_block_missing_handler; [apply helper_same; eassumption|eassumption|eassumption|now apply hcm].
  - match goal with H : args_not _ _ _ = true |- _ => destruct (args_split _ _ H) end.
    eapply ie_own; [eapply block_by_move; [|eassumption]; assumption|eassumption|apply asm; eassumption|apply hm; eassumption|eassumption|eassumption|eassumption|auto].
  - cbn [forallb] in *. match goal with H : _ && _ = true |- _ => apply andb_prop in H; destruct H end. apply err_here. auto.
  - cbn [forallb] in *. match goal with H : _ && _ = true |- _ => apply andb_prop in H; destruct H end.
    match goal with H1 : item_out _ _ _ pb pb1 _ _ i _ |- _ => destruct (O1 _ _ _ _ _ _ _ _ H1 ltac:(assumption) ltac:(assumption)) as (? & ?) end. eapply err_later; [eassumption|auto].
  - now apply round_here.
  - match goal with H1 : items_out _ _ _ pb pb1 _ _ l _ |- _ => destruct (O2 _ _ _ _ _ _ _ _ H1 ltac:(assumption) ltac:(assumption)) as (? & ?) end. eapply round_later; [eassumption|auto].
  - apply else_err_cond. now apply cond_breaks_move.
  - eapply else_err_body; [apply else_move; eassumption|]. match goal with H : _ -> _ -> items_err _ _ _ _ _ _ _ _ _ _ |- _ => apply H; [eapply else_not; eassumption|assumption] end.
  - apply fall_stop.
  - change (rg_escape (w_reg w)) with (rg_escape (w_reg w')). apply fall_say; auto.
  - apply fall_put; auto.
  - apply fall_show; auto.
  - match goal with H1 : items_out _ _ _ pb pb1 _ _ _ _ |- _ => destruct (O2 _ _ _ _ _ _ _ _ H1 ltac:(assumption) ltac:(assumption)) as (? & ?) end. eapply fall_shown; [eassumption|auto].
  - apply fall_else; auto.
  - match goal with H1 : else_out _ _ _ pb pb1 _ r _, H2 : else_branch _ _ _ _ _ |- _ => destruct (O4 _ _ _ _ _ _ _ H1 ltac:(intros ? ? ->; eapply else_not; [|exact H2]; assumption) ltac:(assumption)) as (? & ?) end. eapply fall_elsed; [apply else_move; eassumption|eassumption|auto].
  - apply fall_enter; auto.
  - apply fall_alter; auto.
  - apply fall_leave; auto.
Qed.
End Move.
