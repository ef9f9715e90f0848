(** * DataFacts: proofs for C81 *)
From Coq Require Import Lia String.
From Verif Require Import Str Lexer Json Ast Parser Render Helpers Registry StrFacts Spec_Lexer Spec_Values Spec_Helpers Spec_Blocks Spec_Calls Spec_Source Spec_Sem Spec_Fail Spec_Total Spec_Data CycleFacts ExchangeFacts.
Open Scope nat_scope. Open Scope list_scope.

(** ** Programs that do not ask for the data *)
Definition rooted (d : json) (en : env) : env := mkEnv (en_plat en) (en_reg en) (en_name en) d (en_write en).
Definition knot_at (d : json) (K : knot) : knot := mkKnot (fun en => k_node K (rooted d en)) (fun en => k_call K (rooted d en)) (fun en => k_stmt K (rooted d en)).
Lemma mcatch_same {A B} (m : M A) (f g : hres A -> M B) st : (forall r st, f r st = g r st) -> mcatch m f st = mcatch m g st.
Proof. intros H. unfold mcatch. destruct (m st); try reflexivity; apply H. Qed.
Lemma bind_same {A B} (m : M A) (f g : A -> M B) st : (forall r st, f r st = g r st) -> bind m f st = bind m g st.
Proof. intros H. unfold bind. destruct (m st); try reflexivity; apply H. Qed.
Lemma inverse_go_at d K en src cs : forall alt st, inverse_go (knot_at d K) en src alt cs st = inverse_go K (rooted d en) src alt cs st.
Proof.
  induction cs as [|x cs IH]; intros alt st; cbn [inverse_go]; [reflexivity|]. destruct x; try apply IH. destruct (call_is_empty (b_call b)); [apply IH|].
  apply bind_same. intros [v|] st'; [|apply IH]. destruct (is_truthy v); [reflexivity|apply IH].
Qed.
Lemma inverse_at d K en t st : inverse (knot_at d K) en t st = inverse K (rooted d en) t st.
Proof. unfold inverse. destruct (tp_node t); try reflexivity. unfold bind. now rewrite inverse_go_at. Qed.
Lemma discreet_run d K en p : discreet p -> forall st, run (knot_at d K) en p st = run K (rooted d en) p st.
Proof.
  intros H. induction H as [v|e| |t k H IH|t k H IH|t k H IH|t k H IH|s e k H IH|s k H IH|s k H IH|k H IH|f k H IH|n h k H IH|n k H IH|n k H IH|k H IH|s k H IH|l s k H IH]; intros st; cbn [run]; try reflexivity.
  - apply (mcatch_same (template_ K (rooted d en) t)). intros r st'. apply IH.
  - apply (mcatch_same (render_ K (rooted d en) t)). intros r st'. apply IH.
  - apply (mcatch_same (buffer K (rooted d en) t)). intros r st'. apply IH.
  - transitivity (mcatch (inverse K (rooted d en) t) (fun r => run (knot_at d K) en (k r)) st).
    + unfold mcatch. now rewrite inverse_at.
    + apply mcatch_same. intros r st'. apply IH.
  - apply (mcatch_same (write_str (rooted d en) s e)). intros r st'. apply IH.
  - apply (mcatch_same (emit (rooted d en) s)). intros r st'. apply IH.
  - apply bind_same. intros r st'. apply IH.
  - apply bind_same. intros r st'. destruct (r_scopes r); [apply IH|]. apply bind_same. intros _ st''. apply IH.
  - apply bind_same. intros r st'. apply IH.
  - apply bind_same. intros r st'. apply IH.
  - apply bind_same. intros r st'. apply IH.
  - apply IH.
  - apply bind_same. intros r st'. apply IH.
  - apply IH.
  - apply IH.
Qed.
Lemma discreet_writes ws v : discreet (writes ws v).
Proof. induction ws as [|[x e] ws IH]; cbn [writes]; [constructor|]. constructor. intros [a|a]; cbn; [exact IH|constructor]. Qed.
Lemma discreet_halt s : discreet (halt s).
Proof. destruct s; constructor. Qed.
Lemma discreet_steps t l v : discreet (in_steps t l v).
Proof.
  induction l as [|[x e|x| | |sc|g| |e] l IH]; cbn [in_steps]; try (constructor; auto; fail); constructor; intros [a|a]; cbn; try exact IH; try constructor.
  destruct a; [|exact IH]. constructor. intros [b|b]; cbn; [exact IH|constructor].
Qed.
Lemma discreet_out w s e p out : helper_out w s e p out -> discreet p.
Proof. intros H. destruct H; [constructor|apply discreet_writes]. Qed.

Section Data.
Variables (pl : plat) (reg : registry) (data data' : json) (docs : list (str * list item)) (H N : list str).
Let w := mkWorld pl reg data docs.
Let w' := mkWorld pl reg data' docs.
Hypothesis Hag : agree N data data'.
Hypothesis Hdisc : discreet_registry reg.
Hypothesis Hreg : forall n, In n H -> assoc n (rg_helpers reg) <> None.
Hypothesis Hstd : forall n, In n H -> In n block_helpers -> standard w n.

Lemma among_in l n : among l n = true -> In n l.
Proof. unfold among. rewrite existsb_exists. intros (x & Hx & E). apply streq_eq in E. now subst. Qed.
Lemma in_among l n : In n l -> among l n = true.
Proof. intros X. unfold among. apply existsb_exists. exists n. split; [exact X|apply streq_refl]. Qed.

Lemma acts_move scs f n vs ps text prop blk p : (forall ctx t, discreet (f ctx t)) -> discreet p -> acts w scs f n vs ps text prop blk p -> acts w' scs f n vs ps text prop blk p.
Proof.
  intros Df Dp Ha ctx t E1 E2 E3 E4 E5 E6 K en st (S1 & S2 & S3 & S4). cbn in S1, S2, S3.
  specialize (Ha ctx t E1 E2 E3 E4 E5 E6 (knot_at data' K) (rooted data en) st ltac:(repeat split; cbn; assumption)).
  rewrite !discreet_run in Ha by auto. unfold rooted in Ha. cbn in Ha. rewrite <- S2 in Ha. destruct en; exact Ha.
Qed.
Lemma performs_move scs f n vs ps prop l v : (forall ctx t, discreet (f ctx t)) -> performs w scs f n vs ps prop l v -> performs w' scs f n vs ps prop l v.
Proof.
  intros Df Ha ctx t E1 E2 E3 E4 E5 K en st (S1 & S2 & S3 & S4). cbn in S1, S2, S3.
  specialize (Ha ctx t E1 E2 E3 E4 E5 (knot_at data' K) (rooted data en) st ltac:(repeat split; cbn; assumption)).
  rewrite !discreet_run in Ha by (auto using discreet_steps). unfold rooted in Ha. cbn in Ha. rewrite <- S2 in Ha. destruct en; exact Ha.
Qed.
Lemma disc_helper n f : assoc n (rg_helpers (w_reg w)) = Some f -> forall ctx t, discreet (f ctx t).
Proof. intros X. apply Hdisc. left. exists n. exact X. Qed.
Lemma disc_missing f : rg_missing (w_reg w) = Some f -> forall ctx t, discreet (f ctx t).
Proof. intros X. apply Hdisc. right. left. exact X. Qed.
Lemma disc_block_missing f : rg_block_missing (w_reg w) = Some f -> forall ctx t, discreet (f ctx t).
Proof. intros X. apply Hdisc. right. right. left. exact X. Qed.
Lemma disc_link f : rg_link (w_reg w) = Some f -> forall ctx t, discreet (f ctx t).
Proof. intros X. apply Hdisc. right. right. right. exact X. Qed.
Lemma disc_called scs h t n f : called w scs h t n f -> forall ctx t, discreet (f ctx t).
Proof. intros X. destruct X as [n f _ X|n f _ _ _ X]; [eapply disc_helper; exact X|eapply disc_missing; exact X]. Qed.
Lemma disc_block scs n name f prop : block_by w scs n name f prop -> forall ctx t, discreet (f ctx t).
Proof. intros X. destruct X as [f X _|f v _ _ X]; [eapply disc_helper; exact X|eapply disc_block_missing; exact X]. Qed.

(** ** Paths *)
Definition topped (scs : list scope) : Prop := exists s ss b, scs = s :: ss /\ sc_value s = Some b.
Lemma visible_move d d' n p scs v : agree N d d' -> In n N -> visible (n :: p) d scs v -> visible (n :: p) d' scs v.
Proof. intros A I X. induction X as [v X|s ss v X|s ss v X1 X2 IH]; [apply visible_data, (A n p v I), X|now apply visible_here|now apply visible_outer]. Qed.
Lemma this_move d d' inner scs b t : agree N d d' -> (inner = true -> topped scs) -> this_is d scs b ->
  (inner = true \/ match t with [] => False | k :: _ => In k N end) -> forall v, follow b t v -> exists b', this_is d' scs b' /\ follow b' t v.
Proof.
  intros A T X C v F. destruct X as [|s ss b X|s ss X].
  - destruct C as [C|C]; [destruct (T C) as (s & ss & b & E & _); discriminate E|]. destruct t as [|k t]; [contradiction|]. exists d'. split; [constructor|]. now apply (A k t v C).
  - exists b. split; [now constructor|exact F].
  - destruct C as [C|C]; [destruct (T C) as (s' & ss' & b & E & E'); injection E as -> _; congruence|]. destruct t as [|k t]; [contradiction|]. exists d'. split; [now constructor|]. now apply (A k t v C).
Qed.
Lemma path_move d d' inner scs h t v : agree N d d' -> (inner = true -> topped scs) -> path_within N inner h t = true -> path_value d scs h t v -> path_value d' scs h t v.
Proof.
  intros A T W X. destruct X as [n t v X|b X|t b v X F|s t b v X F|k n t v X|n t v X|t v F|n t s ss v E X F]; cbn [path_within] in W.
  - apply pv_name. eapply visible_move; [exact A|now apply among_in|exact X].
  - rewrite orb_false_r in W. subst inner. destruct (T eq_refl) as (s & ss & b' & -> & E). apply pv_this. inversion X; subst; [now constructor|congruence].
  - destruct (this_move d d' inner scs b (segs t) A T X) with (v := v) as (b' & X1 & X2); [|exact F|eapply pv_this_in; eassumption].
    apply orb_prop in W. destruct W as [W|W]; [now left|right]. destruct t as [|x t]; [discriminate W|]. cbn. now apply among_in.
  - destruct (this_move d d' inner scs b (seg_value s :: segs t) A T X) with (v := v) as (b' & X1 & X2); [|exact F|eapply pv_dot; eassumption].
    apply orb_prop in W. destruct W as [W|W]; [now left|right]. now apply among_in.
  - apply pv_up. destruct X as [X|(X1 & X2)]; [left; exact X|right]. split; [exact X1|]. apply (A n (segs t) v (among_in _ _ W)), X2.
  - apply pv_up_none. eapply visible_move; [exact A|now apply among_in|exact X].
  - apply pv_root. rewrite streq_refl in W. cbn [negb orb] in W. destruct t as [|x t]; [inversion F|]. cbn in *. apply (A _ _ v (among_in _ _ W)), F.
  - eapply pv_local; eassumption.
Qed.
Lemma agree_sym d d' : agree N d d' -> agree N d' d.
Proof. intros A n p v I. symmetry. now apply A. Qed.
Lemma no_value_move inner scs h t : (inner = true -> topped scs) -> path_within N inner h t = true -> no_value data scs h t -> no_value data' scs h t.
Proof. intros T W X v Y. apply (X v). eapply path_move; [apply agree_sym, Hag|exact T|exact W|exact Y]. Qed.
Lemma value_move inner scs h t v : (inner = true -> topped scs) -> path_within N inner h t = true -> path_value data scs h t v -> path_value data' scs h t v.
Proof. intros T W X. eapply path_move; [exact Hag|exact T|exact W|exact X]. Qed.

(** ** Calls *)
Lemma name_text m : path_text (HdName m) [] = m.
Proof. unfold path_text. cbn. apply app_nil_r. Qed.
Lemma calls_one_spec h t : calls_one H h t = true -> exists n, names h t n /\ In n H.
Proof. destruct t as [|x t]; [|discriminate]. destruct h; try discriminate; intros X; apply among_in in X; eexists; (split; [|exact X]); repeat split. Qed.
Lemma within_not inner h t : head_within H N inner h t = true -> not_helper w h t -> path_within N inner h t = true.
Proof. intros X Y. apply orb_prop in X. destruct X as [X|X]; [|exact X]. destruct (calls_one_spec _ _ X) as (n & X1 & X2). destruct (Hreg n X2). exact (Y n X1). Qed.
Lemma name_not inner n : head_within H N inner (HdName n) [] = true -> assoc n (rg_helpers (w_reg w)) = None -> path_within N inner (HdName n) [] = true.
Proof. intros X Y. apply within_not; [exact X|]. intros m (_ & -> & _). now rewrite name_text. Qed.
Section At.
Variables (inner : bool) (scs : list scope).
Hypothesis T : inner = true -> topped scs.
Lemma called_move h t n f : head_within H N inner h t = true -> called w scs h t n f -> called w' scs h t n f.
Proof.
  intros W X. destruct X as [m f Hm X|m f Hm X H1 H2]; [eapply called_helper; eassumption|eapply called_missing; try eassumption].
  eapply no_value_move; [exact T| |exact H1]. apply within_not; [exact W|]. intros m' Hm'. destruct Hm as (_ & -> & _), Hm' as (_ & -> & _). exact X.
Qed.
Lemma call_split h t xs hs : call_within H N inner (Call h t xs hs) = true -> head_within H N inner h t = true /\ forallb (expr_within H N inner) xs = true /\ forallb (fun kx => expr_within H N inner (snd kx)) hs = true.
Proof. cbn [call_within]. intros X. apply andb_prop in X. destruct X as [X X3]. apply andb_prop in X. destruct X as [X1 X2]. auto. Qed.
Lemma gives_move f n vs ps v : (forall ctx t, discreet (f ctx t)) -> gives w scs f n vs ps v -> gives w' scs f n vs ps v.
Proof. intros D X. apply acts_move; [exact D|constructor|exact X]. Qed.
Lemma values_move act :
  (forall x v, arg_value w scs act x v -> expr_within H N inner x = true -> arg_value w' scs act x v)
  /\ (forall xs vs, args_value w scs act xs vs -> forallb (expr_within H N inner) xs = true -> args_value w' scs act xs vs)
  /\ (forall hs ps, hash_value w scs act hs ps -> forallb (fun kx => expr_within H N inner (snd kx)) hs = true -> hash_value w' scs act hs ps)
  /\ (forall c v, call_value w scs act c v -> call_within H N inner c = true -> call_value w' scs act c v).
Proof.
  apply (values_ex w scs (fun act x v => expr_within H N inner x = true -> arg_value w' scs act x v) (fun act xs vs => forallb (expr_within H N inner) xs = true -> args_value w' scs act xs vs)
    (fun act hs ps => forallb (fun kx => expr_within H N inner (snd kx)) hs = true -> hash_value w' scs act hs ps) (fun act c v => call_within H N inner c = true -> call_value w' scs act c v)); intros.
  1-5: constructor; assumption.
  - apply av_path. eapply value_move; eassumption.
  - apply av_no_path. eapply no_value_move; eassumption.
  - apply av_sub. auto.
  - apply av_no_sub. auto.
  - constructor.
  - cbn [forallb] in *. match goal with H : _ && _ = true |- _ => apply andb_prop in H; destruct H end. constructor; auto.
  - constructor.
  - cbn [forallb snd] in *. match goal with H : _ && _ = true |- _ => apply andb_prop in H; destruct H end. constructor; auto.
  - match goal with H : call_within _ _ _ _ = true |- _ => destruct (call_split _ _ _ _ H) as (? & ? & ?) end. eapply cv_helper; [eapply called_move; eassumption|eassumption|auto|auto|eassumption|]. eapply gives_move; [eapply disc_called|]; eassumption.
  - match goal with H : call_within _ _ _ _ = true |- _ => destruct (call_split _ _ _ _ H) as (? & ? & ?) end. apply cv_variable; [assumption|]. eapply value_move; [exact T|eapply within_not; eassumption|assumption].
  - match goal with H : call_within _ _ _ _ = true |- _ => destruct (call_split _ _ _ _ H) as (? & ? & ?) end. apply cv_missing; [assumption| |assumption]. eapply no_value_move; [exact T|eapply within_not; eassumption|assumption].
Qed.
Definition am act := proj1 (values_move act).
Definition asm act := proj1 (proj2 (values_move act)).
Definition hm act := proj1 (proj2 (proj2 (values_move act))).
Definition cm act := proj2 (proj2 (proj2 (values_move act))).
Lemma args_split xs hs : args_within H N inner xs hs = true -> forallb (expr_within H N inner) xs = true /\ forallb (fun kx => expr_within H N inner (snd kx)) hs = true.
Proof. apply andb_prop. Qed.
Lemma helper_move act blk n f xs hs text prop p : (forall ctx t, discreet (f ctx t)) -> discreet p -> args_within H N inner xs hs = true -> helper_call w scs act blk n f xs hs text prop p -> helper_call w' scs act blk n f xs hs text prop p.
Proof.
  intros D Dp W (X & vs & pairs & ps & H1 & H2 & H3 & H4). destruct (args_split _ _ W). split; [exact X|]. exists vs, pairs, ps. split; [apply asm; assumption|]. split; [apply hm; assumption|]. split; [assumption|]. now apply acts_move.
Qed.
Lemma args_of h t xs hs : call_within H N inner (Call h t xs hs) = true -> args_within H N inner xs hs = true.
Proof. intros X. destruct (call_split _ _ _ _ X) as (_ & H1 & H2). unfold args_within. now rewrite H1, H2. Qed.
Lemma fails_move nm :
  (forall act x e, arg_fails w nm scs act x e -> expr_within H N inner x = true -> arg_fails w' nm scs act x e)
  /\ (forall act xs e, args_fail w nm scs act xs e -> forallb (expr_within H N inner) xs = true -> args_fail w' nm scs act xs e)
  /\ (forall act hs e, hash_fails w nm scs act hs e -> forallb (fun kx => expr_within H N inner (snd kx)) hs = true -> hash_fails w' nm scs act hs e)
  /\ (forall act blk n f xs hs text prop e, helper_call_fails w nm scs act blk n f xs hs text prop e -> (forall ctx t, discreet (f ctx t)) -> args_within H N inner xs hs = true -> helper_call_fails w' nm scs act blk n f xs hs text prop e)
  /\ (forall act c e, call_fails w nm scs act c e -> call_within H N inner c = true -> call_fails w' nm scs act c e).
Proof.
  apply fails_ex; intros.
  - constructor. auto.
  - cbn [forallb] in *. match goal with H : _ && _ = true |- _ => apply andb_prop in H; destruct H end. apply asf_here. auto.
  - cbn [forallb] in *. match goal with H : _ && _ = true |- _ => apply andb_prop in H; destruct H end. eapply asf_later; [apply am; eassumption|auto].
  - match goal with H : forallb _ (_ ++ _) = true |- _ => rewrite forallb_app in H; cbn [forallb snd] in H; apply andb_prop in H; destruct H as [? H]; apply andb_prop in H; destruct H end. eapply hf_one; [apply hm; eassumption|auto|apply hm; eassumption].
  - now apply hc_cycle.
  - apply hc_arg; [assumption|]. match goal with H : args_within _ _ _ _ _ = true |- _ => destruct (args_split _ _ H) end. auto.
  - match goal with H : args_within _ _ _ _ _ = true |- _ => destruct (args_split _ _ H) end. eapply hc_hash; [assumption|apply asm; eassumption|auto].
  - apply hc_run. apply helper_move; auto using discreet_halt.
  - match goal with H : call_within _ _ _ _ = true |- _ => destruct (call_split _ _ _ _ H) as (? & ? & ?); pose proof (args_of _ _ _ _ H) end. eapply cf_helper; [apply called_move; eassumption|]. match goal with H : _ -> _ -> helper_call_fails _ _ _ _ _ _ _ _ _ _ _ _ |- _ => apply H end; [eapply disc_called; eassumption|assumption].
  - match goal with H : call_within _ _ _ _ = true |- _ => destruct (call_split _ _ _ _ H) as (? & ? & ?) end. apply cf_strict; auto. eapply no_value_move; [exact T|eapply within_not; eassumption|assumption].
Qed.
Definition afm nm := proj1 (fails_move nm).
Definition asfm nm := proj1 (proj2 (fails_move nm)).
Definition hfm nm := proj1 (proj2 (proj2 (fails_move nm))).
Definition hcm nm := proj1 (proj2 (proj2 (proj2 (fails_move nm)))).
Definition cfm nm := proj2 (proj2 (proj2 (proj2 (fails_move nm)))).
Lemma ho_move s e p out : helper_out w s e p out -> helper_out w' s e p out.
Proof. intros X. induction X; [apply ho_value|]. apply (ho_writes w' s e x esc y ws v out); assumption. Qed.
Lemma block_arg_move act n x hs v : args_within H N inner [x] hs = true -> block_arg w scs act n x hs v -> block_arg w' scs act n x hs v.
Proof.
  intros A (H1 & H2 & H3 & pairs & ps & H4 & H5). destruct (args_split _ _ A) as (A1 & A2). cbn in A1. rewrite andb_true_r in A1. split; [exact H1|]. split; [exact H2|]. split; [apply am; assumption|]. exists pairs, ps. split; [apply hm; assumption|exact H5].
Qed.
Lemma partial_args_move act n xs hs sc : args_within H N inner xs hs = true -> partial_args w scs act n xs hs sc -> partial_args w' scs act n xs hs sc.
Proof. intros A (vs & pairs & ps & H1 & H2 & H3 & H4). destruct (args_split _ _ A). exists vs, pairs, ps. split; [apply asm; assumption|]. split; [apply hm; assumption|]. split; assumption. Qed.
Lemma include_move nm act pb n xs hs e : args_within H N inner xs hs = true -> include_fails w nm scs act pb n xs hs e -> include_fails w' nm scs act pb n xs hs e.
Proof.
  intros A X. destruct (args_split _ _ A). destruct X; [now apply inf_cycle|now apply inf_unknown|apply inf_hash; try assumption; now apply hfm|eapply inf_args; try eassumption; [apply hm|apply asfm]; eassumption].
Qed.
Definition branch_within (b : branch) : bool := match fst (fst b) with Some c => call_within H N inner c | None => true end && forallb (item_within H N inner) (snd b).
Lemma cond_fails_move act b : branch_within b = true -> cond_fails w scs act b -> cond_fails w' scs act b.
Proof.
  intros W X c E. destruct (X c E) as (v & H1 & H2). exists v. split; [apply cm; [exact H1|]|exact H2]. apply andb_prop in W. destruct W as [W _]. unfold br_cond in E. now rewrite E in W.
Qed.
Lemma conds_fail_move act bs : forallb branch_within bs = true -> Forall (cond_fails w scs act) bs -> Forall (cond_fails w' scs act) bs.
Proof. rewrite forallb_forall, !Forall_forall. intros W X b Hb. apply cond_fails_move; auto. Qed.
Lemma else_move act bs r : forallb branch_within bs = true -> else_branch w scs act bs r -> else_branch w' scs act bs r.
Proof.
  intros W X. destruct X as [pre b post c v E H1 H2 H3 H4|pre b post E H1 H2 H3|H1 H2].
  - subst bs. rewrite forallb_app in W. apply andb_prop in W. destruct W as [N1 N2]. cbn [forallb] in N2. apply andb_prop in N2. destruct N2 as [N2 _].
    eapply else_cond; [reflexivity|apply conds_fail_move; assumption|exact H2| |exact H4]. apply cm; [exact H3|]. apply andb_prop in N2. destruct N2 as [N2 _]. unfold br_cond in H2. now rewrite H2 in N2.
  - eapply else_plain; try eassumption. now apply conds_fail_move.
  - apply else_none; [now apply conds_fail_move|assumption].
Qed.
Lemma else_within act bs b post : forallb branch_within bs = true -> else_branch w scs act bs (Some (b, post)) -> forallb (item_within H N inner) (br_body b) = true.
Proof.
  intros W X. rewrite forallb_forall in W. assert (Y : In b bs) by (inversion X; subst; apply in_or_app; right; left; reflexivity). specialize (W b Y). apply andb_prop in W. exact (proj2 W).
Qed.
Lemma cond_breaks_move nm act bs err : forallb branch_within bs = true -> cond_breaks w nm scs act bs err -> cond_breaks w' nm scs act bs err.
Proof.
  intros W [pre b post c -> H1 H2 H3]. rewrite forallb_app in W. apply andb_prop in W. destruct W as [N1 N2]. cbn [forallb] in N2. apply andb_prop in N2. destruct N2 as [N2 _].
  eapply cond_break; [reflexivity|apply conds_fail_move; assumption|exact H2|]. apply cfm; [exact H3|]. apply andb_prop in N2. destruct N2 as [N2 _]. unfold br_cond in H2. now rewrite H2 in N2.
Qed.
Lemma block_by_move n name f prop : head_within H N inner (HdName n) [] = true -> block_by w scs n name f prop -> block_by w' scs n name f prop.
Proof. intros W [g H1 H2|g v H1 H2 H3]; [now apply by_helper|apply by_handler; [exact H1| |exact H3]]. eapply value_move; [exact T|now apply name_not|exact H2]. Qed.
End At.

Hypothesis Hdocs : forall n d, assoc n docs = Some d -> forallb (item_within H N true) d = true.
Definition pb_within (pb : option (list item)) : Prop := match pb with Some l => forallb (item_within H N true) l = true | None => True end.
Lemma source_within pb n d : pb_within pb -> partial_source w pb n d -> forallb (item_within H N true) d = true.
Proof. intros Hp [(_ & ->)|(_ & X)]; [exact Hp|exact (Hdocs _ _ X)]. Qed.
Lemma block_split inner n xs hs m body bs m' : item_within H N inner (IBlock false (Call (HdName n) [] xs hs) m body bs m') = true ->
  head_within H N inner (HdName n) [] = true /\ args_within H N inner xs hs = true
  /\ ((In n H /\ (n = lit "with" \/ n = lit "each") /\ forallb (item_within H N true) body = true)
      \/ (~ (In n H /\ (n = lit "with" \/ n = lit "each"))
          /\ exists b, (b = true -> inner = true /\ In n H /\ (n = lit "if" \/ n = lit "unless")) /\ forallb (item_within H N b) body = true /\ forallb (branch_within b) bs = true)).
Proof.
  cbn [item_within]. rewrite name_text. intros X. apply andb_prop in X. destruct X as [X X3]. apply andb_prop in X. destruct X as [X1 X2]. split; [exact X1|]. split; [exact X2|].
  destruct (among H n && among [lit "with"; lit "each"] n) eqn:E.
  - apply andb_prop in E. destruct E as [E1 E2]. apply among_in in E1, E2. left. split; [exact E1|]. split; [|exact X3]. cbn in E2. destruct E2 as [E2|[E2|[]]]; auto.
  - right. split.
    + intros (Y1 & Y2). rewrite (in_among _ _ Y1) in E. rewrite in_among in E; [discriminate E|]. destruct Y2 as [ -> | -> ]; cbn; auto.
    + exists (among H n && among [lit "if"; lit "unless"] n && inner). apply andb_prop in X3. destruct X3 as [X3 X4]. split; [|split; [exact X3|exact X4]].
      intros Y. apply andb_prop in Y. destruct Y as [Y Y3]. apply andb_prop in Y. destruct Y as [Y1 Y2]. apply among_in in Y1, Y2. split; [exact Y3|]. split; [exact Y1|]. cbn in Y2. destruct Y2 as [Y2|[Y2|[]]]; auto.
Qed.
Lemma if_split inner n xs hs m body bs m' : n = lit "if" \/ n = lit "unless" -> item_within H N inner (IBlock false (Call (HdName n) [] xs hs) m body bs m') = true ->
  args_within H N inner xs hs = true /\ exists b, (b = true -> inner = true) /\ forallb (item_within H N b) body = true /\ forallb (branch_within b) bs = true.
Proof.
  intros E X. destruct (block_split _ _ _ _ _ _ _ _ X) as (_ & X2 & [(_ & Y & _)|(_ & b & Y1 & Y2 & Y3)]).
  - exfalso. destruct E as [ -> | -> ], Y as [Y|Y]; discriminate Y.
  - split; [exact X2|]. exists b. split; [|auto]. intros Z. exact (proj1 (Y1 Z)).
Qed.
Lemma with_split inner n xs hs m body bs m' : n = lit "with" \/ n = lit "each" -> item_within H N inner (IBlock false (Call (HdName n) [] xs hs) m body bs m') = true ->
  args_within H N inner xs hs = true /\ exists b, forallb (item_within H N b) body = true.
Proof.
  intros E X. destruct (block_split _ _ _ _ _ _ _ _ X) as (_ & X2 & [(_ & _ & Y)|(_ & b & _ & Y2 & _)]); (split; [exact X2|]); eexists; eassumption.
Qed.
Lemma other_split inner n xs hs m body bs m' : ~ (In n block_helpers /\ standard w n) -> item_within H N inner (IBlock false (Call (HdName n) [] xs hs) m body bs m') = true ->
  head_within H N inner (HdName n) [] = true /\ args_within H N inner xs hs = true /\ forallb (item_within H N false) body = true /\ forallb (branch_within false) bs = true.
Proof.
  intros E X. destruct (block_split _ _ _ _ _ _ _ _ X) as (X1 & X2 & [(Y1 & Y2 & _)|(_ & b & Y1 & Y2 & Y3)]).
  - exfalso. apply E. assert (Z : In n block_helpers) by (destruct Y2 as [ -> | -> ]; cbn; auto). split; [exact Z|now apply Hstd].
  - split; [exact X1|]. split; [exact X2|]. destruct b; [|auto]. exfalso. destruct (Y1 eq_refl) as (_ & Z1 & Z2). apply E. assert (Z : In n block_helpers) by (destruct Z2 as [ -> | -> ]; cbn; auto). split; [exact Z|now apply Hstd].
Qed.
Lemma absent_other n : assoc n (rg_helpers (w_reg w)) = None -> ~ (In n block_helpers /\ standard w n).
Proof. intros E (_ & f & _ & X). congruence. Qed.
Lemma by_other scs n name f prop : block_by w scs n name f prop -> ~ (In n block_helpers /\ standard w n).
Proof. intros [g X Y|g v X _ _]; [|now apply absent_other]. intros (Z1 & h & Z2 & Z3). apply Y. split; [exact Z1|]. assert (h = g) by congruence. now subst. Qed.
Lemma head_block inner n xs hs m body bs m' : item_within H N inner (IBlock false (Call (HdName n) [] xs hs) m body bs m') = true -> head_within H N inner (HdName n) [] = true /\ args_within H N inner xs hs = true.
Proof. intros X. destruct (block_split _ _ _ _ _ _ _ _ X) as (X1 & X2 & _). auto. Qed.
Lemma stmt_split inner tr m h t xs hs : item_within H N inner (ICall tr m false (Call h t xs hs)) = true -> head_within H N inner h t = true /\ args_within H N inner xs hs = true /\ call_within H N inner (Call h t xs hs) = true.
Proof. cbn [item_within orb]. intros X. apply andb_prop in X. destruct X as [X1 X2]. split; [exact X1|]. split; [exact X2|]. cbn [call_within]. rewrite X1. exact X2. Qed.
Lemma stmt_call inner tr m c : item_within H N inner (ICall tr m false c) = true -> call_within H N inner c = true.
Proof. destruct c as [h t xs hs]. intros X. exact (proj2 (proj2 (stmt_split _ _ _ _ _ _ _ X))). Qed.
Lemma dyn_split inner tr m p c xs hs : item_within H N inner (IDyn tr m p c xs hs) = true -> call_within H N inner c = true /\ args_within H N inner xs hs = true.
Proof. apply andb_prop. Qed.
Lemma partial_topped vs ps scs : topped (partial_scope vs ps :: scs).
Proof. destruct vs; do 3 eexists; (split; [reflexivity|reflexivity]). Qed.
Lemma args_topped act n xs hs sc scs scs' : partial_args w scs act n xs hs sc -> topped (sc :: scs').
Proof. intros (vs & pairs & ps & _ & _ & _ & ->). apply partial_topped. Qed.
Lemma number_in {A B} (f : nat -> A -> B) l : forall i y, In y (number f i l) -> exists j x, y = f j x.
Proof. induction l as [|x l IH]; intros i y X; cbn in X; [contradiction|]. destruct X as [ <- |X]; [eauto|eapply IH; exact X]. Qed.
Lemma rounds_topped v its : iterations_of v its -> forall sc, In sc its -> forall scs, topped (sc :: scs).
Proof.
  intros [(l & _ & ->)|[(l & _ & ->)|(_ & _ & ->)]] sc X scs; [| |contradiction]; unfold array_scopes, object_scopes in X; apply number_in in X; destruct X as (j & x & ->); do 3 eexists; (split; [reflexivity|reflexivity]).
Qed.
Lemma weaker (inner b : bool) scs : (inner = true -> topped scs) -> (b = true -> inner = true) -> b = true -> topped scs.
Proof. auto. Qed.
Lemma topped_false scs : false = true -> topped scs.
Proof. discriminate. Qed.
Ltac disc := first [eapply disc_called; eassumption|eapply disc_helper; eassumption|eapply disc_block_missing; eassumption|eapply disc_missing; eassumption|eapply disc_link; eassumption|eapply disc_block; eassumption].
Ltac dp := first [eapply discreet_out; eassumption|apply discreet_writes|apply discreet_halt].
Theorem out_move :
  (forall scs act pb pb' s e i out, item_out w scs act pb pb' s e i out -> forall inner, item_within H N inner i = true -> (inner = true -> topped scs) -> pb_within pb -> item_out w' scs act pb pb' s e i out /\ pb_within pb')
  /\ (forall scs act pb pb' s e l out, items_out w scs act pb pb' s e l out -> forall inner, forallb (item_within H N inner) l = true -> (inner = true -> topped scs) -> pb_within pb -> items_out w' scs act pb pb' s e l out /\ pb_within pb')
  /\ (forall its scs act pb pb' s e l out, rounds_out w its scs act pb pb' s e l out -> forall inner, forallb (item_within H N inner) l = true -> (forall sc, In sc its -> topped (sc :: scs)) -> pb_within pb -> rounds_out w' its scs act pb pb' s e l out /\ pb_within pb')
  /\ (forall scs act pb pb' m' r out, else_out w scs act pb pb' m' r out -> forall inner, (forall b post, r = Some (b, post) -> forallb (item_within H N inner) (br_body b) = true) -> (inner = true -> topped scs) -> pb_within pb -> else_out w' scs act pb pb' m' r out /\ pb_within pb')
  /\ (forall scs act pb pb' m body bs m' cur l out, steps_out w scs act pb pb' m body bs m' cur l out -> forallb (item_within H N false) body = true -> forallb (branch_within false) bs = true -> pb_within pb -> steps_out w' scs act pb pb' m body bs m' cur l out /\ pb_within pb').
Proof.
  apply (out_ex w); intros.
  all: try match goal with H : item_within _ _ _ (ICall _ _ false (Call _ _ _ _)) = true |- _ => destruct (stmt_split _ _ _ _ _ _ _ H) as (? & ? & ?) end.
  all: try match goal with H : item_within _ _ _ (ICall _ _ false ?c) = true |- _ => pose proof (stmt_call _ _ _ _ H) end.
  all: try match goal with H : item_within _ _ _ (IDyn _ _ _ _ _ _) = true |- _ => destruct (dyn_split _ _ _ _ _ _ _ H) as (? & ?) end.
  all: try match goal with H : call_within _ _ _ (Call _ _ _ _) = true |- _ => destruct (call_split _ _ _ _ _ H) as (? & ? & ?); pose proof (args_of _ _ _ _ _ H) end.
  all: try change (rg_escape (w_reg w)) with (rg_escape (w_reg w')).
  all: try (split; [constructor; assumption|assumption]).
  - split; [|assumption]. eapply io_value; [eapply cm; eassumption|eassumption|assumption].
  - split; [|assumption]. eapply io_missing. eapply cm; eassumption.
  - split; [|assumption]. eapply io_print; [eapply called_move; eassumption|eapply helper_move; try eassumption; [disc|dp]|now apply ho_move].
  - split; [|assumption]. eapply io_print_value; [eapply called_move; eassumption|eapply helper_move; try eassumption; [disc|dp]|now apply ho_move|eassumption|assumption].
  - split; [|assumption]. eapply io_dyn_value; [eapply cm; eassumption|eassumption|assumption].
  - split; [|assumption]. eapply io_dyn_missing. eapply cm; eassumption.
  - split; [|assumption]. eapply io_dyn_print; [eapply called_move; eassumption|eapply helper_move; try eassumption; [disc|dp]|now apply ho_move].
  - split; [|assumption]. eapply io_dyn_print_value; [eapply called_move; eassumption|eapply helper_move; try eassumption; [disc|dp]|now apply ho_move|eassumption|assumption].
  - split; [|assumption]. eapply io_link_handler; try eassumption; [apply acts_move; [disc|dp|assumption]|now apply ho_move].
  - split; [|assumption]. eapply io_raw; eassumption.
  - split; [|assumption]. eapply io_raw_helper; try eassumption; [eapply helper_move; try eassumption; [disc|dp]|now apply ho_move].
  - match goal with H : forall inner, _ -> _ -> pb_within pb -> _ |- _ => destruct (H true) as (? & ?); [eapply source_within; eassumption|intros _; eapply args_topped; eassumption|assumption|] end.
    split; [|assumption]. eapply io_partial; try eassumption. eapply partial_args_move; eassumption.
  - match goal with H : forall inner, _ -> _ -> pb_within pb -> _ |- _ => destruct (H true) as (? & ?); [eapply source_within; eassumption|intros _; eapply args_topped; eassumption|assumption|] end.
    split; [|assumption]. eapply io_dyn_partial; try eassumption; [eapply cm; eassumption|eapply partial_args_move; eassumption].
  - match goal with H : item_within _ _ _ (IBlock true _ _ _ _ _) = true |- _ => cbn [item_within] in H; apply andb_prop in H; destruct H end.
    match goal with H : forall inner, _ -> _ -> pb_within (Some body) -> _ |- _ => destruct (H true) as (? & ?); [eapply (source_within (Some body)); eassumption|intros _; eapply args_topped; eassumption|assumption|] end.
    split; [|assumption]. eapply io_partial_block; try eassumption. eapply partial_args_move; eassumption.
  - match goal with H : item_within _ _ _ (IBlock _ _ _ _ _ _) = true |- _ => destruct (if_split _ _ _ _ _ _ _ _ (or_introl eq_refl) H) as (? & b & Hb & ? & ?) end.
    match goal with H : forall inner, _ -> _ -> pb_within pb -> _ |- _ => destruct (H b) as (? & ?); [assumption|auto|assumption|] end.
    split; [|assumption]. eapply io_if; [eapply block_arg_move|..]; eassumption.
  - match goal with H : item_within _ _ _ (IBlock _ _ _ _ _ _) = true |- _ => destruct (if_split _ _ _ _ _ _ _ _ (or_introl eq_refl) H) as (? & b & Hb & ? & ?) end.
    match goal with H : forall inner, _ -> _ -> pb_within pb -> _ |- _ => destruct (H b) as (? & ?); [intros ? ? ->; eapply else_within; eassumption|auto|assumption|] end.
    split; [|assumption]. eapply io_if_else; [eapply block_arg_move|..]; try eassumption. eapply (else_move b); eauto.
  - match goal with H : item_within _ _ _ (IBlock _ _ _ _ _ _) = true |- _ => destruct (if_split _ _ _ _ _ _ _ _ (or_intror eq_refl) H) as (? & b & Hb & ? & ?) end.
    match goal with H : forall inner, _ -> _ -> pb_within pb -> _ |- _ => destruct (H b) as (? & ?); [assumption|auto|assumption|] end.
    split; [|assumption]. eapply io_unless; [eapply block_arg_move|..]; eassumption.
  - match goal with H : item_within _ _ _ (IBlock _ _ _ _ _ _) = true |- _ => destruct (if_split _ _ _ _ _ _ _ _ (or_intror eq_refl) H) as (? & b & Hb & ? & ?) end.
    match goal with H : forall inner, _ -> _ -> pb_within pb -> _ |- _ => destruct (H b) as (? & ?); [intros ? ? ->; eapply else_within; eassumption|auto|assumption|] end.
    split; [|assumption]. eapply io_unless_else; [eapply block_arg_move|..]; try eassumption. eapply (else_move b); eauto.
  - match goal with H : item_within _ _ _ (IBlock _ _ _ _ _ _) = true |- _ => destruct (with_split _ _ _ _ _ _ _ _ (or_introl eq_refl) H) as (? & b & ?) end.
    match goal with H : forall inner, _ -> _ -> pb_within pb -> _ |- _ => destruct (H b) as (? & ?); [assumption|intros _; do 3 eexists; split; reflexivity|assumption|] end.
    split; [|assumption]. eapply io_with; [eapply block_arg_move|..]; eassumption.
  - match goal with H : item_within _ _ _ (IBlock _ _ _ _ _ _) = true |- _ => destruct (with_split _ _ _ _ _ _ _ _ (or_introl eq_refl) H) as (? & b & ?) end.
    split; [|assumption]. eapply io_with_null. eapply block_arg_move; eassumption.
  - match goal with H : item_within _ _ _ (IBlock _ _ _ _ _ _) = true |- _ => destruct (with_split _ _ _ _ _ _ _ _ (or_intror eq_refl) H) as (? & b & ?) end.
    match goal with H : forall inner, _ -> _ -> pb_within pb -> _ |- _ => destruct (H b) as (? & ?); [assumption|intros; eapply rounds_topped; eassumption|assumption|] end.
    split; [|assumption]. eapply io_each; [eapply block_arg_move|..]; eassumption.
  - match goal with E : assoc n _ = None, H : item_within _ _ _ (IBlock _ _ _ _ _ _) = true |- _ => destruct (other_split _ _ _ _ _ _ _ _ (absent_other n E) H) as (? & ? & ? & ?) end.
    match goal with H : forall inner, _ -> _ -> pb_within pb -> _ |- _ => destruct (H false) as (? & ?); [assumption|discriminate|assumption|] end.
    split; [|assumption]. eapply io_block; try eassumption. eapply value_move; [eassumption|apply name_not; eassumption|eassumption].
  - match goal with H : item_within _ _ _ (IBlock _ _ _ _ _ _) = true |- _ => destruct (head_block _ _ _ _ _ _ _ _ H) as (? & ?) end.
    split; [|assumption]. eapply io_block_missing; try eassumption. eapply no_value_move; [eassumption|apply name_not; eassumption|eassumption].
  - match goal with H : item_within _ _ _ (IBlock _ _ _ _ _ _) = true |- _ => destruct (head_block _ _ _ _ _ _ _ _ H) as (? & ?) end.
    split; [|assumption]. eapply io_block_helper; try eassumption; [eapply helper_move; try eassumption; [disc|dp]|now apply ho_move].
  - match goal with H : item_within _ _ _ (IBlock _ _ _ _ _ _) = true |- _ => destruct (head_block _ _ _ _ _ _ _ _ H) as (? & ?) end.
    split; [|assumption]. eapply io_block_handler; try eassumption; [eapply value_move; [eassumption|apply name_not; eassumption|eassumption]|eapply helper_move; try eassumption; [disc|dp]|now apply ho_move].
  - match goal with H : item_within _ _ _ (IBlock _ _ _ _ _ _) = true |- _ => destruct (head_block _ _ _ _ _ _ _ _ H) as (? & ?) end.
    split; [|assumption]. eapply io_block_missing_handler; try eassumption; [eapply no_value_move; [eassumption|apply name_not; eassumption|eassumption]|eapply helper_move; try eassumption; [disc|dp]|now apply ho_move].
  - match goal with E : block_by _ _ n _ _ _, H : item_within _ _ _ (IBlock _ _ _ _ _ _) = true |- _ => destruct (other_split _ _ _ _ _ _ _ _ (by_other _ _ _ _ _ E) H) as (? & A & ? & ?); destruct (args_split _ _ _ A) end.
    match goal with H : forallb _ body = true -> forallb _ bs = true -> pb_within pb -> _ |- _ => destruct (H ltac:(assumption) ltac:(assumption) ltac:(assumption)) as (? & ?) end. split; [|assumption].
    eapply io_own; [eapply block_by_move; eassumption|eassumption|eapply asm; eassumption|eapply hm; eassumption|eassumption|eapply performs_move; [disc|eassumption]|eassumption|eassumption].
  - cbn [forallb] in *. match goal with H : _ && _ = true |- _ => apply andb_prop in H; destruct H end. 
    match goal with H1 : forall inner, item_within _ _ _ i = true -> _ -> pb_within pb -> _, H2 : forall inner, forallb _ l = true -> _ -> pb_within pb1 -> _ |- _ => destruct (H1 inner ltac:(assumption) ltac:(assumption) ltac:(assumption)) as (? & ?); destruct (H2 inner ltac:(assumption) ltac:(assumption) ltac:(assumption)) as (? & ?) end. split; [econstructor; eassumption|assumption].
  - match goal with H1 : forall inner, forallb _ l = true -> _ -> pb_within pb -> _, H2 : forall inner, forallb _ l = true -> _ -> pb_within pb1 -> _, T : forall s, In s _ -> _ |- _ => destruct (H1 inner ltac:(assumption) ltac:(intros _; apply T; left; reflexivity) ltac:(assumption)) as (? & ?); destruct (H2 inner ltac:(assumption) ltac:(intros ? ?; apply T; right; assumption) ltac:(assumption)) as (? & ?) end. split; [econstructor; eassumption|assumption].
  - match goal with H : forall inner, forallb _ _ = true -> _ -> pb_within _ -> _, H1 : forall b post, _ -> _ |- _ => destruct (H inner (H1 _ _ eq_refl) ltac:(assumption) ltac:(assumption)) as (? & ?) end. split; [constructor; assumption|assumption].
  - match goal with H : forallb _ body = true -> forallb _ bs = true -> pb_within pb -> _ |- _ => destruct (H ltac:(assumption) ltac:(assumption) ltac:(assumption)) as (? & ?) end. split; [|assumption]. now apply steps_say.
  - match goal with H : forallb _ body = true -> forallb _ bs = true -> pb_within pb -> _ |- _ => destruct (H ltac:(assumption) ltac:(assumption) ltac:(assumption)) as (? & ?) end. split; [|assumption]. now apply steps_put.
  - match goal with H : forall inner, _ -> _ -> pb_within pb -> _ |- _ => destruct (H false) as (? & ?); [assumption|discriminate|assumption|] end.
    match goal with H : forallb _ body = true -> forallb _ bs = true -> pb_within pb1 -> _ |- _ => destruct (H ltac:(assumption) ltac:(assumption) ltac:(assumption)) as (? & ?) end. split; [|assumption]. eapply steps_show; eassumption.
  - match goal with H : forall inner, _ -> _ -> pb_within pb -> _ |- _ => destruct (H false) as (? & ?); [intros ? ? ->; eapply else_within; eassumption|discriminate|assumption|] end.
    match goal with H : forallb _ body = true -> forallb _ bs = true -> pb_within pb1 -> _ |- _ => destruct (H ltac:(assumption) ltac:(assumption) ltac:(assumption)) as (? & ?) end. split; [|assumption]. eapply steps_else; [eapply (else_move false); [discriminate|eassumption|eassumption]|eassumption|eassumption].
  - match goal with H : forallb _ body = true -> forallb _ bs = true -> pb_within pb -> _ |- _ => destruct (H ltac:(assumption) ltac:(assumption) ltac:(assumption)) as (? & ?) end. split; [|assumption]. now apply steps_enter.
  - match goal with H : forallb _ body = true -> forallb _ bs = true -> pb_within pb -> _ |- _ => destruct (H ltac:(assumption) ltac:(assumption) ltac:(assumption)) as (? & ?) end. split; [|assumption]. now apply steps_alter.
  - match goal with H : forallb _ body = true -> forallb _ bs = true -> pb_within pb -> _ |- _ => destruct (H ltac:(assumption) ltac:(assumption) ltac:(assumption)) as (? & ?) end. split; [|assumption]. now apply steps_leave.
Qed.
Theorem err_move nm :
  (forall scs act pb s e i out err, item_err w nm scs act pb s e i out err -> forall inner, item_within H N inner i = true -> (inner = true -> topped scs) -> pb_within pb -> item_err w' nm scs act pb s e i out err)
  /\ (forall scs act pb s e l out err, items_err w nm scs act pb s e l out err -> forall inner, forallb (item_within H N inner) l = true -> (inner = true -> topped scs) -> pb_within pb -> items_err w' nm scs act pb s e l out err)
  /\ (forall its scs act pb s e l out err, rounds_err w nm its scs act pb s e l out err -> forall inner, forallb (item_within H N inner) l = true -> (forall sc, In sc its -> topped (sc :: scs)) -> pb_within pb -> rounds_err w' nm its scs act pb s e l out err)
  /\ (forall scs act pb bs m' out err, else_err w nm scs act pb bs m' out err -> forall inner, forallb (branch_within inner) bs = true -> (inner = true -> topped scs) -> pb_within pb -> else_err w' nm scs act pb bs m' out err)
  /\ (forall act pb m body bs m' cur l out err, steps_err w nm act pb m body bs m' cur l out err -> forallb (item_within H N false) body = true -> forallb (branch_within false) bs = true -> pb_within pb -> steps_err w' nm act pb m body bs m' cur l out err).
Proof.
  destruct out_move as (O1 & O2 & _ & O4 & _).
  apply (err_ex w nm); intros.
  all: try match goal with H : item_within _ _ _ (ICall _ _ false ?c) = true |- _ => pose proof (stmt_call _ _ _ _ H) end.
  all: try match goal with H : item_within _ _ _ (ICall _ _ true (Call _ _ _ _)) = true |- _ => cbn [item_within orb andb] in H end.
  all: try match goal with H : item_within _ _ _ (IRaw (Call _ _ _ _) _ _ _) = true |- _ => cbn [item_within] in H end.
  all: try match goal with H : item_within _ _ _ (IDyn _ _ _ _ _ _) = true |- _ => destruct (dyn_split _ _ _ _ _ _ _ H) as (? & ?) end.
  all: try match goal with H : item_within _ _ _ (IBlock true _ _ _ _ _) = true |- _ => cbn [item_within] in H; apply andb_prop in H; destruct H end.
  - eapply ie_call. eapply cfm; eassumption.
  - eapply ie_dyn. eapply cfm; eassumption.
  - eapply ie_link_cycle; eassumption.
  - eapply ie_link; try eassumption. apply acts_move; [disc|dp|assumption].
  - eapply ie_raw; try eassumption. eapply hcm; try eassumption. disc.
  - apply ie_partial_identifier; assumption.
  - eapply ie_partial_enter; [eassumption|eapply include_move; eassumption].
  - eapply ie_partial; try eassumption; [eapply partial_args_move; eassumption|].
    match goal with H : forall inner, _ -> _ -> pb_within pb -> _ |- _ => apply (H true); [eapply source_within; eassumption|intros _; eapply args_topped; eassumption|assumption] end.
  - eapply ie_dyn_enter; [eapply cm; eassumption|eassumption|eapply include_move; eassumption].
  - eapply ie_dyn_partial; try eassumption; [eapply cm; eassumption|eapply partial_args_move; eassumption|].
    match goal with H : forall inner, _ -> _ -> pb_within pb -> _ |- _ => apply (H true); [eapply source_within; eassumption|intros _; eapply args_topped; eassumption|assumption] end.
  - eapply ie_partial_block_enter. eapply include_move; eassumption.
  - eapply ie_partial_block; try eassumption; [eapply partial_args_move; eassumption|].
    match goal with H : forall inner, _ -> _ -> pb_within (Some body) -> _ |- _ => apply (H true); [eapply (source_within (Some body)); eassumption|intros _; eapply args_topped; eassumption|assumption] end.
  - match goal with H : item_within _ _ _ (IBlock _ _ _ _ _ _) = true |- _ => destruct (head_block _ _ _ _ _ _ _ _ H) as (? & ?) end. eapply ie_block_helper; try eassumption. eapply hcm; try eassumption. disc.
  - match goal with H : item_within _ _ _ (IBlock _ _ _ _ _ _) = true |- _ => destruct (if_split _ _ _ _ _ _ _ _ (or_introl eq_refl) H) as (? & b & Hb & ? & ?) end.
    eapply ie_if; [eapply block_arg_move|..]; try eassumption. match goal with H : forall inner, _ -> _ -> pb_within pb -> _ |- _ => apply (H b); auto end.
  - match goal with H : item_within _ _ _ (IBlock _ _ _ _ _ _) = true |- _ => destruct (if_split _ _ _ _ _ _ _ _ (or_introl eq_refl) H) as (? & b & Hb & ? & ?) end.
    eapply ie_if_else; [eapply block_arg_move|..]; try eassumption. match goal with H : forall inner, _ -> _ -> pb_within pb -> _ |- _ => apply (H b); auto end.
  - match goal with H : item_within _ _ _ (IBlock _ _ _ _ _ _) = true |- _ => destruct (if_split _ _ _ _ _ _ _ _ (or_intror eq_refl) H) as (? & b & Hb & ? & ?) end.
    eapply ie_unless; [eapply block_arg_move|..]; try eassumption. match goal with H : forall inner, _ -> _ -> pb_within pb -> _ |- _ => apply (H b); auto end.
  - match goal with H : item_within _ _ _ (IBlock _ _ _ _ _ _) = true |- _ => destruct (if_split _ _ _ _ _ _ _ _ (or_intror eq_refl) H) as (? & b & Hb & ? & ?) end.
    eapply ie_unless_else; [eapply block_arg_move|..]; try eassumption. match goal with H : forall inner, _ -> _ -> pb_within pb -> _ |- _ => apply (H b); auto end.
  - match goal with H : item_within _ _ _ (IBlock _ _ _ _ _ _) = true |- _ => destruct (with_split _ _ _ _ _ _ _ _ (or_introl eq_refl) H) as (? & b & ?) end.
    eapply ie_with; [eapply block_arg_move|..]; try eassumption. match goal with H : forall inner, _ -> _ -> pb_within pb -> _ |- _ => apply (H b); [assumption|intros _; do 3 eexists; split; reflexivity|assumption] end.
  - match goal with H : item_within _ _ _ (IBlock _ _ _ _ _ _) = true |- _ => destruct (with_split _ _ _ _ _ _ _ _ (or_intror eq_refl) H) as (? & b & ?) end.
    eapply ie_each; [eapply block_arg_move|..]; try eassumption. match goal with H : forall inner, _ -> _ -> pb_within pb -> _ |- _ => apply (H b); [assumption|intros; eapply rounds_topped; eassumption|assumption] end.
  - match goal with E : assoc n _ = None, H : item_within _ _ _ (IBlock _ _ _ _ _ _) = true |- _ => destruct (other_split _ _ _ _ _ _ _ _ (absent_other n E) H) as (? & ? & ? & ?) end.
    eapply ie_block; try eassumption; [eapply value_move; [eassumption|apply name_not; eassumption|eassumption]|]. match goal with H : forall inner, _ -> _ -> pb_within pb -> _ |- _ => apply (H false); [assumption|discriminate|assumption] end.
  - match goal with H : item_within _ _ _ (IBlock _ _ _ _ _ _) = true |- _ => destruct (head_block _ _ _ _ _ _ _ _ H) as (? & ?) end.
    eapply ie_block_strict; try eassumption. eapply no_value_move; [eassumption|apply name_not; eassumption|eassumption].
  - match goal with H : item_within _ _ _ (IBlock _ _ _ _ _ _) = true |- _ => destruct (head_block _ _ _ _ _ _ _ _ H) as (? & ?) end.
    eapply ie_block_handler; try eassumption; [eapply value_move; [eassumption|apply name_not; eassumption|eassumption]|eapply hcm; try eassumption; disc].
  - match goal with H : item_within _ _ _ (IBlock _ _ _ _ _ _) = true |- _ => destruct (head_block _ _ _ _ _ _ _ _ H) as (? & ?) end.
    eapply ie_block_missing_handler; try eassumption; [eapply no_value_move; [eassumption|apply name_not; eassumption|eassumption]|eapply hcm; try eassumption; disc].
  - match goal with E : block_by _ _ n _ _ _, H : item_within _ _ _ (IBlock _ _ _ _ _ _) = true |- _ => destruct (other_split _ _ _ _ _ _ _ _ (by_other _ _ _ _ _ E) H) as (? & A & ? & ?); destruct (args_split _ _ _ A) end.
    eapply ie_own; [eapply block_by_move; eassumption|eassumption|eapply asm; eassumption|eapply hm; eassumption|eassumption|eapply performs_move; [disc|eassumption]|eassumption|auto].
  - cbn [forallb] in *. match goal with H : _ && _ = true |- _ => apply andb_prop in H; destruct H end. apply err_here. eauto.
  - cbn [forallb] in *. match goal with H : _ && _ = true |- _ => apply andb_prop in H; destruct H end.
    match goal with H1 : item_out _ _ _ pb pb1 _ _ i _ |- _ => destruct (O1 _ _ _ _ _ _ _ _ H1 inner ltac:(assumption) ltac:(assumption) ltac:(assumption)) as (? & ?) end. eapply err_later; [eassumption|eauto].
  - apply round_here. match goal with T : forall s, In s _ -> _, H : forall inner, _ -> _ -> pb_within pb -> _ |- _ => apply (H inner); [assumption|intros _; apply T; left; reflexivity|assumption] end.
  - match goal with H1 : items_out _ _ _ pb pb1 _ _ l _, T : forall s, In s _ -> _ |- _ => destruct (O2 _ _ _ _ _ _ _ _ H1 inner ltac:(assumption) ltac:(intros _; apply T; left; reflexivity) ltac:(assumption)) as (? & ?) end.
    eapply round_later; [eassumption|]. match goal with T : forall s, In s _ -> _, H : forall inner, _ -> _ -> pb_within pb1 -> _ |- _ => apply (H inner); [assumption|intros ? ?; apply T; right; assumption|assumption] end.
  - apply else_err_cond. eapply cond_breaks_move; eassumption.
  - eapply else_err_body; [eapply else_move; eassumption|]. match goal with H : forall inner, _ -> _ -> pb_within pb -> _ |- _ => apply (H inner); [eapply else_within; eassumption|assumption|assumption] end.
  - apply fall_stop.
  - change (rg_escape (w_reg w)) with (rg_escape (w_reg w')). apply fall_say; auto.
  - apply fall_put; auto.
  - apply fall_show. match goal with H : forall inner, _ -> _ -> pb_within pb -> _ |- _ => apply (H false); [assumption|discriminate|assumption] end.
  - match goal with H1 : items_out _ _ _ pb pb1 _ _ _ _ |- _ => destruct (O2 _ _ _ _ _ _ _ _ H1 false ltac:(assumption) ltac:(discriminate) ltac:(assumption)) as (? & ?) end. eapply fall_shown; [eassumption|auto].
  - apply fall_else. match goal with H : forall inner, _ -> _ -> pb_within pb -> _ |- _ => apply (H false); [assumption|discriminate|assumption] end.
  - match goal with H1 : else_out _ _ _ pb pb1 _ r _, H2 : else_branch _ _ _ _ _ |- _ => destruct (O4 _ _ _ _ _ _ _ H1 false ltac:(intros ? ? ->; eapply else_within; [|exact H2]; assumption) ltac:(discriminate) ltac:(assumption)) as (? & ?) end. eapply fall_elsed; [eapply (else_move false); [discriminate|eassumption|eassumption]|eassumption|auto].
  - apply fall_enter; auto.
  - apply fall_alter; auto.
  - apply fall_leave; auto.
Qed.
End Data.
