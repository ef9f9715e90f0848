(** * InjectFacts: proofs for C78 *)
From Coq Require Import Lia String.
From Verif Require Import Str Lexer Json Ast Parser Render Helpers Registry Tests StrFacts Spec_Lexer Spec_Values Spec_Helpers Spec_Blocks Spec_Calls CycleFacts Spec_Source Spec_Sem SemFacts SemItems Spec_Fail FailItems Props_Fail Spec_Total TotalFacts Props_Total Spec_Inject OwnFacts ExchangeFacts.
Open Scope nat_scope. Open Scope list_scope.

Section Weave.
Variables (own other : str -> Prop).
Lemma woven_app x y : woven own other x -> woven own other y -> woven own other (x ++ y).
Proof. induction 1; intros Hy; [exact Hy| |]; rewrite <- app_assoc; [eapply woven_own|eapply woven_other]; eauto. Qed.
Lemma woven_stripped s e x y : own x -> stripped s e x y -> woven own other y.
Proof. intros Ho (a & b & -> & Ha & Hb & _). rewrite <- (app_nil_r y). apply (woven_own own other a y b); auto. constructor. Qed.
Lemma woven_stripped2 s e s' e' x y z : own x -> stripped s e x y -> stripped s' e' y z -> woven own other z.
Proof.
  intros Ho (a & b & -> & Ha & Hb & _) (a' & b' & -> & Ha' & Hb' & _). rewrite <- (app_nil_r z). apply (woven_own own other (a ++ a') z (b' ++ b)); [|intros c Hc; apply in_app_or in Hc; destruct Hc; auto ..|constructor].
  replace ((a ++ a') ++ z ++ b' ++ b) with (a ++ (a' ++ z ++ b') ++ b) by now rewrite <- !app_assoc. exact Ho.
Qed.
Lemma woven_one y : other y -> woven own other y.
Proof. intros H. rewrite <- (app_nil_r y). apply woven_other; [exact H|constructor]. Qed.
End Weave.

(** a template that renders to nothing *)
Definition nil_tpl : tpl := mkTpl [] (NDoc []).
Lemma nil_template K en st : template_ K en nil_tpl st = ROk tt (up_end None st).
Proof. reflexivity. Qed.
Definition still (p : hprog) : Prop := forall K en st v st', run K en p st = ROk v st' -> r_out st' = r_out st.
Lemma still_ret v : still (HRet v).
Proof. intros K en st u st' [= <- <-]. reflexivity. Qed.
Lemma still_fail e : still (HFail e).
Proof. intros K en st u st' [=]. Qed.
Lemma still_panic : still HPanic.
Proof. intros K en st u st' [=]. Qed.
Lemma still_template k : (forall r, still (k r)) -> still (HTemplate nil_tpl k).
Proof. intros H K en st v st'. cbn [run]. unfold mcatch. rewrite nil_template. intros E. exact (H _ K en _ v st' E). Qed.
Lemma still_inverse k : (forall r, still (k r)) -> still (HInverse nil_tpl k).
Proof. intros H K en st v st' E. exact (H (HOk None) K en _ v st' E). Qed.
Lemma still_inverse_none k : still (k (HOk None)) -> still (HInverse nil_tpl k).
Proof. intros H K en st v st' E. exact (H K en _ v st' E). Qed.
Lemma still_push s k : still k -> still (HPushScope s k).
Proof. intros H K en st v st' E. exact (H K en _ v st' E). Qed.
Lemma still_mut s k : still k -> still (HScopeMut s k).
Proof. intros H K en st v st' E. cbn [run] in E. unfold upd, bind in E. rewrite (H K en _ v st' E). now destruct (r_scopes st). Qed.
Lemma still_pop k : (forall r, still (k r)) -> still (HPopScope k).
Proof. intros H K en st v st' E. cbn [run] in E. rewrite bind_get in E. destruct (r_scopes st); [exact (H None K en _ v st' E)|exact (H (Some s) K en _ v st' E)]. Qed.
Lemma still_try {A} (f : A -> hprog) r : (forall a, still (f a)) -> still (htry f r).
Proof. intros H. destruct r; [apply H|apply still_fail]. Qed.
Lemma still_obj l : forall i k, still k -> still (each_obj nil_tpl i l k).
Proof. induction l as [|[x v] l IH]; intros i k H; [exact H|]. cbn [each_obj]. apply still_mut, still_template. intros r. apply still_try. intros a. now apply IH. Qed.
Lemma still_arr n l : forall i k, still k -> still (each_arr nil_tpl n i l k).
Proof. induction l as [|v l IH]; intros i k H; [exact H|]. cbn [each_arr]. apply still_mut, still_template. intros r. apply still_try. intros a. now apply IH. Qed.
Lemma still_end : still (HPopScope (fun _ => HRet None)).
Proof. apply still_pop. intros r. apply still_ret. Qed.
Lemma block_still pl n f ctx : builtin pl n f -> In n block_helpers -> still (f ctx (Some nil_tpl)).
Proof.
  intros Hb Hn. cbn in Hn. repeat destruct Hn as [<-|Hn]; try contradiction; injection Hb as <-;
    unfold if_helper, unless_helper, with_helper, each_helper, with_arity; apply still_try; intros _; unfold with_arg; try (destruct (ctx_get ctx 0) as [v|]; [|first [apply still_panic|apply still_ret]]).
  - destruct (is_truthy v); [apply still_template; intros; apply still_try; intros|apply still_inverse_none]; apply still_ret.
  - destruct (is_truthy v); cbn [negb]; [apply still_inverse_none|apply still_template; intros; apply still_try; intros]; apply still_ret.
  - destruct v; try apply still_ret; apply still_push, still_mut, still_template; intros r; apply still_try; intros a; apply still_end.
  - apply still_push. destruct v; try apply still_end; [apply still_arr|apply still_obj]; apply still_end.
Qed.

Lemma helper_out_total w s e ws v : exists out, helper_out w s e (writes ws v) out.
Proof.
  induction ws as [|[x esc] ws (out & IH)]; [eexists; constructor|]. destruct (stripped_total s e x) as (y & Hy). eexists. apply ho_writes; [exact Hy|exact IH].
Qed.

Section World.
Variables (w : world).
Hypothesis Hc : careful_world w.
Let E := escaped_by (rg_escape (w_reg w)).
Variable T : str -> Prop.
Let en := mkEnv (w_plat w) (w_reg w) [] (w_data w) string_writer.
Let Hw : forall h s, exists n, en_write en h s = WOk n. Proof. intros. eexists. reflexivity. Qed.
Definition st_of (scs : list scope) (s e : bool) : rst := mkR [] [] scs (mkTrim s e) None None [] [] [].
Lemma woven_written y : woven T E (written (rg_escape (w_reg w)) y).
Proof. destruct y as [|c y]; [constructor|]. apply woven_one. eexists. reflexivity. Qed.
Lemma careful_out s e p out : helper_out w s e p out -> forall ws v, p = writes ws v -> Forall (fun x => snd x = true) ws -> woven T E out.
Proof.
  induction 1 as [u|x esc y ws0 v0 out Hy Ho IH]; intros ws v Ep Hws; [constructor|].
  destruct ws as [|[x' esc'] ws]; [discriminate Ep|]. cbn [writes] in Ep. injection Ep as <- <- Ep. inversion Hws as [|? ? H1 H2]; subst. cbn in H1. subst esc.
  apply woven_app; [apply woven_written|]. exact (IH ws v (f_equal (fun g => g (HOk 0)) Ep) H2).
Qed.
(** two programs that a call comes to write the same *)
Definition some_ctx (n : str) (vs : list json) (ps : list (str * json)) (text : option str) (prop : option (str * json)) : hctx := bare n vs ps text prop.
Definition some_block (blk : bool) : option tpl := if blk then Some nil_tpl else None.
Definition K0 : knot := mkKnot (fun _ _ _ _ st => RFuel) (fun _ _ _ st => RFuel) (fun _ _ _ st => RFuel).
Lemma acts_at scs f n vs ps text prop blk p s e : acts w scs f n vs ps text prop blk p ->
  run K0 en (f (bare n vs ps text prop) (some_block blk)) (st_of scs s e) = run K0 en p (st_of scs s e).
Proof.
  intros H. apply (H (bare n vs ps text prop) (some_block blk)); try reflexivity; [destruct blk; cbn; split; congruence|repeat split].
Qed.
Lemma acts_woven scs f n vs ps text prop blk p s e out :
  careful w blk f \/ (In n block_helpers /\ builtin (w_plat w) n f /\ blk = true) ->
  acts w scs f n vs ps text prop blk p -> helper_out w s e p out -> woven T E out.
Proof.
  intros C Ha Ho. pose proof (acts_at scs f n vs ps text prop blk p s e Ha) as R.
  destruct (out_run w en eq_refl Hw s e p out scs [] (st_of scs s e) K0 Ho ltac:(repeat split) eq_refl) as (v & st' & R1 & (_ & _ & M) & _). rewrite R1 in R. cbn in M. destruct C as [C|(C1 & C2 & ->)].
  - destruct (C scs n vs ps text prop) as (q & Hq & [(ws & u & -> & Hws)|(h & ->)]).
    + rewrite (acts_at _ _ _ _ _ _ _ _ _ s e Hq) in R. destruct (helper_out_total w s e ws u) as (o & Ho').
      destruct (out_run w en eq_refl Hw s e _ o scs [] (st_of scs s e) K0 Ho' ltac:(repeat split) eq_refl) as (v2 & st2 & R2 & (_ & _ & M2) & _). rewrite R2 in R. injection R as -> ->. cbn in M2. rewrite <- M, M2. exact (careful_out s e _ o Ho' ws u eq_refl Hws).
    + rewrite (acts_at _ _ _ _ _ _ _ _ _ s e Hq) in R. destruct h; discriminate R.
  - pose proof (block_still _ n f (bare n vs ps text prop) C2 C1 _ _ _ _ _ R) as X. rewrite X in M. cbn in M. rewrite <- M. constructor.
Qed.
Lemma call_woven scs act blk n f xs hs text prop p s e out :
  careful w blk f \/ (In n block_helpers /\ builtin (w_plat w) n f /\ blk = true) ->
  helper_call w scs act blk n f xs hs text prop p -> helper_out w s e p out -> woven T E out.
Proof. intros C (_ & vs & pairs & ps & _ & _ & _ & Ha) Ho. exact (acts_woven _ _ _ _ _ _ _ _ _ _ _ _ C Ha Ho). Qed.
Lemma block_careful n f : assoc n (rg_helpers (w_reg w)) = Some f -> careful w true f \/ (In n block_helpers /\ builtin (w_plat w) n f /\ true = true).
Proof. intros H. destruct (proj2 (ca_helper w Hc _ _ H)) as [X|(X & Y)]; auto. Qed.
Lemma careful_simple blk f : careful w blk f -> simple w blk f.
Proof. intros H scs n vs ps text prop. destruct (H scs n vs ps text prop) as (p & Hp & [(ws & v & -> & _)|Hh]); exists p + eexists; (split; [eassumption|]); [left; eauto|right; exact Hh]. Qed.
Lemma plain_blocks n f : assoc n (rg_helpers (w_reg w)) = Some f -> simple w true f \/ (In n block_helpers /\ builtin (w_plat w) n f).
Proof. intros H. destruct (proj2 (ca_helper w Hc _ _ H)) as [X|X]; [left; now apply careful_simple|now right]. Qed.
Lemma plain_handler f : rg_block_missing (w_reg w) = Some f -> simple w true f.
Proof. intros H. apply careful_simple. exact (ca_block_missing w Hc _ H). Qed.
Lemma called_careful scs h t n f : called w scs h t n f -> careful w false f.
Proof. intros [n0 f0 _ H|n0 f0 _ _ _ H]; [exact (proj1 (ca_helper w Hc _ _ H))|exact (ca_missing w Hc _ H)]. Qed.

(** items that do no harm *)
Definition good (i : item) : Prop := escaping i = true /\ forall x, text_of i x -> T x.
Definition goods (l : list item) : Prop := forall i, In i l -> good i.
Definition good_pb (pb : option (list item)) : Prop := match pb with Some l => goods l | None => True end.
Hypothesis Hd : forall n d, assoc n (w_docs w) = Some d -> goods d.
Lemma good_body p c m body bs m' : good (IBlock p c m body bs m') -> goods body.
Proof.
  intros (H1 & H2) i Hi. cbn [escaping] in H1. apply andb_prop in H1. destruct H1 as [H1 _]. rewrite forallb_forall in H1. split; [now apply H1|]. intros x Hx. apply H2. eapply tx_body; eauto.
Qed.
Lemma good_branch p c m body bs m' b : good (IBlock p c m body bs m') -> In b bs -> goods (br_body b).
Proof.
  intros (H1 & H2) Hb i Hi. cbn [escaping] in H1. apply andb_prop in H1. destruct H1 as [_ H1]. rewrite forallb_forall in H1. specialize (H1 b Hb). rewrite forallb_forall in H1. split; [now apply H1|]. intros x Hx. apply H2. eapply tx_branch; eauto.
Qed.
Lemma source_good pb n d : good_pb pb -> partial_source w pb n d -> goods d.
Proof. intros Hp [(_ & ->)|(_ & H)]; [exact Hp|exact (Hd _ _ H)]. Qed.
Lemma else_in scs act bs b post : else_branch w scs act bs (Some (b, post)) -> In b bs.
Proof. inversion 1; subst; apply in_or_app; right; left; reflexivity. Qed.
Lemma value_woven (triple : bool) y : triple = false -> woven T E (if triple then y else written (rg_escape (w_reg w)) y).
Proof. intros ->. apply woven_written. Qed.
Lemma good_triple triple m c : good (ICall triple m false c) -> triple = false.
Proof. intros (H & _). now destruct triple. Qed.
Lemma good_dyn triple m c xs hs : good (IDyn triple m false c xs hs) -> triple = false.
Proof. intros (H & _). now destruct triple. Qed.

Theorem weave :
  (forall scs act pb pb' s e i out, item_out w scs act pb pb' s e i out -> good i -> good_pb pb -> woven T E out /\ good_pb pb')
  /\ (forall scs act pb pb' s e l out, items_out w scs act pb pb' s e l out -> goods l -> good_pb pb -> woven T E out /\ good_pb pb')
  /\ (forall its scs act pb pb' s e l out, rounds_out w its scs act pb pb' s e l out -> goods l -> good_pb pb -> woven T E out /\ good_pb pb')
  /\ (forall scs act pb pb' m' r out, else_out w scs act pb pb' m' r out -> (forall b post, r = Some (b, post) -> goods (br_body b)) -> good_pb pb -> woven T E out /\ good_pb pb')
  /\ (forall scs act pb pb' m body bs m' cur l out, steps_out w scs act pb pb' m body bs m' cur l out -> True).
Proof.
  apply (out_ex w); intros; try exact I.
  all: try match goal with H : good (IText _) |- _ => split; [eapply woven_stripped; [apply H; constructor|eassumption]|assumption] end.
  all: try match goal with H : good (ICall _ _ false _) |- _ => pose proof (good_triple _ _ _ H) end.
  all: try match goal with H : good (IDyn _ _ false _ _ _) |- _ => pose proof (good_dyn _ _ _ _ _ H) end.
  all: try (split; [constructor|assumption]; fail).
  all: try (split; [now apply value_woven|assumption]; fail).
  all: try (match goal with H : called _ _ _ _ _ _, H1 : helper_call _ _ _ _ _ _ _ _ _ _ _ |- _ => split; [|assumption]; first [apply woven_app; [|now apply value_woven]|idtac]; exact (call_woven _ _ _ _ _ _ _ _ _ _ _ _ _ (or_introl (called_careful _ _ _ _ _ H)) H1 ltac:(eassumption)) end).
  all: try match goal with H : good (IEscaped _) |- _ => split; [eapply woven_stripped; [apply H; constructor|eassumption]|assumption] end.
  all: try match goal with H : good (IBlock _ _ _ _ _ _), H2 : goods ?b -> good_pb ?pb -> _, H3 : good_pb ?pb |- _ => apply H2; [first [exact (good_body _ _ _ _ _ _ H)|eapply source_good; [|eassumption]; first [eassumption|exact (good_body _ _ _ _ _ _ H)]]|first [assumption|exact (good_body _ _ _ _ _ _ H)]] end.
  - (* link *) split; [|assumption]. match goal with H : good (ILink _ _), H2 : stripped _ _ _ _ |- _ => eapply woven_stripped; [apply H; constructor|exact H2] end.
  - (* link handler *) split; [|assumption]. match goal with H : rg_link _ = Some _, H2 : acts _ _ _ _ _ _ _ _ _ _, H3 : helper_out _ _ _ _ _ |- _ => exact (acts_woven _ _ _ _ _ _ _ _ _ _ _ _ (or_introl (ca_link w Hc _ H)) H2 H3) end.
  - (* raw *) split; [|assumption]. match goal with H : good (IRaw _ _ _ _), H2 : stripped _ _ x y, H3 : stripped _ _ y z |- _ => exact (woven_stripped2 _ _ _ _ _ _ _ _ _ (proj2 H _ (tx_raw _ _ _ _)) H2 H3) end.
  - (* raw, helper *) split; [|assumption]. match goal with H : assoc n _ = Some _, H2 : helper_call _ _ _ _ _ _ _ _ _ _ _, H3 : helper_out _ _ _ _ _ |- _ => exact (call_woven _ _ _ _ _ _ _ _ _ _ _ _ _ (block_careful _ _ H) H2 H3) end.
  - (* partial *) match goal with H : partial_source _ _ _ _, H2 : goods _ -> good_pb _ -> _ |- _ => apply H2; [eapply source_good; [|exact H]|]; assumption end.
  - match goal with H : partial_source _ _ _ _, H2 : goods _ -> good_pb _ -> _ |- _ => apply H2; [eapply source_good; [|exact H]|]; assumption end.
  - match goal with H : partial_source _ _ _ _, H2 : goods _ -> good_pb _ -> _, H3 : good (IBlock _ _ _ _ _ _) |- _ => apply H2; [eapply source_good; [|exact H]|]; exact (good_body _ _ _ _ _ _ H3) end.
  - (* else *) match goal with H : else_branch _ _ _ _ _, H2 : (forall b post, _ -> goods _) -> good_pb _ -> _, H3 : good (IBlock _ _ _ _ _ _) |- _ => apply H2; [intros b post ->; exact (good_branch _ _ _ _ _ _ _ H3 (else_in _ _ _ _ _ H))|assumption] end.
  - match goal with H : else_branch _ _ _ _ _, H2 : (forall b post, _ -> goods _) -> good_pb _ -> _, H3 : good (IBlock _ _ _ _ _ _) |- _ => apply H2; [intros b post ->; exact (good_branch _ _ _ _ _ _ _ H3 (else_in _ _ _ _ _ H))|assumption] end.
  - (* block helper *) split; [|assumption]. match goal with H : assoc n _ = Some _, H2 : helper_call _ _ _ _ _ _ _ _ _ _ _, H3 : helper_out _ _ _ _ _ |- _ => exact (call_woven _ _ _ _ _ _ _ _ _ _ _ _ _ (block_careful _ _ H) H2 H3) end.
  - split; [|assumption]. match goal with H : rg_block_missing _ = Some _, H2 : helper_call _ _ _ _ _ _ _ _ _ _ _, H3 : helper_out _ _ _ _ _ |- _ => exact (call_woven _ _ _ _ _ _ _ _ _ _ _ _ _ (or_introl (ca_block_missing w Hc _ H)) H2 H3) end.
  - split; [|assumption]. match goal with H : rg_missing _ = Some _, H2 : helper_call _ _ _ _ _ _ _ _ _ _ _, H3 : helper_out _ _ _ _ _ |- _ => exact (call_woven _ _ _ _ _ _ _ _ _ _ _ _ _ (or_introl (ca_missing w Hc _ H)) H2 H3) end.
  - (* own block helper *) match goal with Hby : block_by _ _ _ _ _ _ |- _ => pose proof Hby as Hby2 end.
    destruct (own_out w plain_blocks plain_handler scs act pb pb' s e n xs hs m body bs m' name f prop vs pairs ps l v out) as (-> & p & Hcl & Hho); [eassumption..|]. split; [|assumption]. destruct Hby2 as [g Hg _|g u Hg Hu Hm].
    + exact (call_woven _ _ _ _ _ _ _ _ _ _ _ _ _ (block_careful _ _ Hg) Hcl Hho).
    + exact (call_woven _ _ _ _ _ _ _ _ _ _ _ _ _ (or_introl (ca_block_missing w Hc _ Hm)) Hcl Hho).
  - (* items *) match goal with H1 : good i -> good_pb pb -> _, H2 : goods l -> good_pb pb1 -> _, H3 : goods (i :: l), H4 : good_pb pb |- _ =>
      destruct (H1 (H3 i (or_introl eq_refl)) H4) as (X1 & X2); destruct (H2 (fun j Hj => H3 j (or_intror Hj)) X2) as (X3 & X4); split; [now apply woven_app|exact X4] end.
  - (* rounds *) match goal with H1 : goods l -> good_pb pb -> _, H2 : goods l -> good_pb pb1 -> _, H3 : goods l, H4 : good_pb pb |- _ =>
      destruct (H1 H3 H4) as (X1 & X2); destruct (H2 H3 X2) as (X3 & X4); split; [now apply woven_app|exact X4] end.
  - match goal with H1 : goods (br_body b) -> _ -> _, H2 : forall b post, _ -> goods _, H3 : good_pb _ |- _ => exact (H1 (H2 _ _ eq_refl) H3) end.
Qed.
Theorem weave_err nm :
  (forall scs act pb s e i out err, item_err w nm scs act pb s e i out err -> good i -> good_pb pb -> woven T E out)
  /\ (forall scs act pb s e l out err, items_err w nm scs act pb s e l out err -> goods l -> good_pb pb -> woven T E out)
  /\ (forall its scs act pb s e l out err, rounds_err w nm its scs act pb s e l out err -> goods l -> good_pb pb -> woven T E out)
  /\ (forall scs act pb bs m' out err, else_err w nm scs act pb bs m' out err -> (forall b, In b bs -> goods (br_body b)) -> good_pb pb -> woven T E out)
  /\ (forall act pb m body bs m' cur l out err, steps_err w nm act pb m body bs m' cur l out err -> True).
Proof.
  destruct weave as (W1 & W2 & _).
  apply (err_ex w nm); intros; try exact I; try (constructor; fail).
  all: try match goal with H : partial_source _ (Some _) _ _, H2 : goods _ -> good_pb _ -> _, H3 : good (IBlock _ _ _ _ _ _) |- _ => apply H2; [eapply source_good; [|exact H]|]; exact (good_body _ _ _ _ _ _ H3) end.
  all: try match goal with H : partial_source _ _ _ _, H2 : goods _ -> good_pb _ -> _ |- _ => apply H2; [eapply source_good; [|exact H]|]; assumption end.
  all: try match goal with H : good (IBlock _ _ _ _ _ _), H2 : goods ?b -> good_pb ?pb -> _ |- _ => apply H2; [exact (good_body _ _ _ _ _ _ H)|assumption] end.
  all: try match goal with H : good (IBlock _ _ _ _ _ _), H2 : (forall b, In b _ -> goods _) -> _ |- _ => apply H2; [intros b Hb; exact (good_branch _ _ _ _ _ _ _ H Hb)|assumption] end.
  - destruct (own_err w plain_blocks plain_handler nm scs act pb n xs hs m body bs m' name f prop vs pairs ps l v out err) as (-> & _); [eassumption..|]. constructor.
  - match goal with H1 : good i -> good_pb pb -> _, H3 : goods (i :: l) |- _ => apply H1; [apply H3; now left|assumption] end.
  - match goal with H1 : item_out _ _ _ pb pb1 _ _ i o, H2 : goods l -> good_pb pb1 -> _, H3 : goods (i :: l), H4 : good_pb pb |- _ =>
      destruct (W1 _ _ _ _ _ _ _ _ H1 (H3 i (or_introl eq_refl)) H4) as (X1 & X2); apply woven_app; [exact X1|exact (H2 (fun j Hj => H3 j (or_intror Hj)) X2)] end.
  - auto.
  - match goal with H1 : items_out _ _ _ pb pb1 _ _ l o, H2 : goods l -> good_pb pb1 -> _, H3 : goods l, H4 : good_pb pb |- _ =>
      destruct (W2 _ _ _ _ _ _ _ _ H1 H3 H4) as (X1 & X2); apply woven_app; [exact X1|exact (H2 H3 X2)] end.
  - match goal with H1 : goods (br_body b) -> _ -> _, H2 : forall b, In b bs -> goods _, H3 : else_branch _ _ _ _ _ |- _ => apply H1; [exact (H2 _ (else_in _ _ _ _ _ H3))|assumption] end.
Qed.
End World.
