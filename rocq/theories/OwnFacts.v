(** * OwnFacts: a block helper that only writes or stops takes no other steps, so that the two ways of describing it agree *)
From Coq Require Import Lia String.
From Verif Require Import Str Lexer Json Ast Parser Render Helpers Registry Tests StrFacts Spec_Lexer Spec_Values Spec_Helpers Spec_Blocks Spec_Calls CycleFacts Props_Blocks Spec_Source Spec_Sem SemFacts SemItems Spec_Fail FailItems Spec_Total TotalFacts.
Open Scope nat_scope. Open Scope list_scope.

Definition own_src : str := lit "{{#a}}b{{else}}c{{/a}}".
(** a block with content and a branch *)
Definition own_tpl : tpl :=
  match template_compile pl0 (mkOpts (lit "p") 0 0) own_src with AOk te => match te_node te with NDoc [n] => mkTpl own_src n | _ => mkTpl [] (NDoc []) end | _ => mkTpl [] (NDoc []) end.
Definition own_else : tpl :=
  match tp_node own_tpl with NBlock b => match b_conds b with [n] => mkTpl own_src n | _ => mkTpl [] (NDoc []) end | _ => mkTpl [] (NDoc []) end.
(** nodes do not terminate *)
Definition deaf : knot := mkKnot (fun _ _ _ _ st => RFuel) (fun _ _ _ st => RFuel) (fun _ _ _ st => RFuel).
Lemma show_deaf en st : template_ deaf en own_tpl st = RFuel.
Proof. unfold template_. rewrite bind_get. generalize (r_hint st). intros h. vm_compute. destruct h as [[]|]; reflexivity. Qed.
Lemma else_deaf en st : template_ deaf en own_else st = RFuel.
Proof. unfold template_. rewrite bind_get. generalize (r_hint st). intros h. vm_compute. destruct h as [[]|]; reflexivity. Qed.
Lemma inverse_deaf en st : inverse deaf en own_tpl st = ROk (Some own_else) st.
Proof. vm_compute. reflexivity. Qed.

Definition own_ctx (n : str) (vs : list json) (ps : list (str * json)) (prop : option (str * json)) : hctx := mkHctx (mkCall false false (0, 0) None (TPath (path_new (0, 0) (0, 0))) [] [] (0, 0)) [] n vs ps None prop [].
Section World.
Variables (w : world).
Let en := mkEnv (w_plat w) (w_reg w) [] (w_data w) string_writer.
Let Hw : forall h s, exists n, en_write en h s = WOk n. Proof. intros. eexists. reflexivity. Qed.
Definition here (scs : list scope) (s e : bool) : rst := mkR [] [] scs (mkTrim s e) None None [] [] [].
Lemma steps_deaf scs act pb pb' m body bs m' cur l out v : steps_out w scs act pb pb' m body bs m' cur l out ->
  forall st, at_state cur [] st ->
  run deaf en (in_steps own_tpl l v) st = RFuel
  \/ (pb' = pb /\ exists st', run deaf en (in_steps own_tpl l v) st = ROk v st' /\ concat (r_out st') = concat (r_out st) ++ out).
Proof.
  induction 1 as [| ? ? ? ? ? ? ? ? ? x esc l o Hx _ IH| ? ? ? ? ? ? ? ? ? x l o _ IH| | | ? ? ? ? ? ? ? ? ? sc l o _ IH| ? ? ? ? ? ? ? ? cur sc g l o _ IH| ? ? ? ? ? ? ? ? cur sc l o _ IH]; intros st Hs.
  - right. split; [reflexivity|]. exists st. split; [reflexivity|now rewrite app_nil_r].
  - destruct (r_trim st) as [ts te] eqn:Et. destruct (write_runs w en eq_refl Hw x esc ts te cur [] st x Hs Et (solid_strip _ _ _ Hx)) as (n & st1 & E & M & R1 & R2).
    destruct M as (M1 & M2 & M3). cbn [in_steps run]. rewrite try_ret, (bind_ok _ _ _ _ _ E). destruct (IH st1 M1) as [X|(-> & st' & X1 & X2)]; [left; exact X|right].
    split; [reflexivity|]. exists st'. split; [exact X1|]. rewrite X2, M3, app_assoc. reflexivity.
  - destruct (Hw (r_out st) x) as (n & E). cbn [in_steps run]. rewrite try_ret. unfold bind at 1 2. unfold emit. rewrite E. set (st1 := up_out (r_out st ++ [x]) st).
    destruct (IH st1 Hs) as [X|(-> & st' & X1 & X2)]; [left; exact X|right]. split; [reflexivity|]. exists st'. split; [exact X1|]. rewrite X2. unfold st1. cbn. rewrite concat_app, <- app_assoc. cbn. rewrite app_nil_r. reflexivity.
  - left. cbn [in_steps run]. rewrite try_ret. unfold bind. rewrite show_deaf. reflexivity.
  - left. cbn [in_steps run]. rewrite try_ret. rewrite (bind_ok _ _ _ _ _ (inverse_deaf en st)). cbn [run]. rewrite try_ret. unfold bind. rewrite else_deaf. reflexivity.
  - cbn [in_steps run]. rewrite bind_upd. exact (IH (up_scopes (sc :: r_scopes st) st) (at_scope _ _ _ _ Hs)).
  - cbn [in_steps run]. rewrite bind_upd. assert (Es : r_scopes st = sc :: cur) by apply Hs. rewrite Es. apply (IH (up_scopes (g sc :: cur) st)). destruct Hs as (X1 & X2 & X3). split; auto.
  - cbn [in_steps run]. assert (Es : r_scopes st = sc :: cur) by apply Hs. rewrite bind_get, Es, bind_upd. apply (IH (up_scopes cur st)). destruct Hs as (X1 & X2 & X3). split; auto.
Qed.
Lemma fall_deaf nm act pb m body bs m' cur l out err v : steps_err w nm act pb m body bs m' cur l out err ->
  forall st, at_state cur [] st ->
  run deaf en (in_steps own_tpl l v) st = RFuel
  \/ (exists e st', err = Fails e /\ run deaf en (in_steps own_tpl l v) st = RErr e st' /\ concat (r_out st') = concat (r_out st) ++ out).
Proof.
  induction 1 as [|? ? ? ? ? ? ? x esc l o err Hx _ IH| ? ? ? ? ? ? ? x l o err _ IH| | | | | ? ? ? ? ? ? ? sc l o err _ IH| ? ? ? ? ? ? cur sc g l o err _ IH| ? ? ? ? ? ? cur sc l o err _ IH]; intros st Hs.
  - right. eexists _, st. split; [reflexivity|]. split; [reflexivity|now rewrite app_nil_r].
  - destruct (r_trim st) as [ts te] eqn:Et. destruct (write_runs w en eq_refl Hw x esc ts te cur [] st x Hs Et (solid_strip _ _ _ Hx)) as (n & st1 & E & M & R1 & R2).
    destruct M as (M1 & M2 & M3). cbn [in_steps run]. rewrite try_ret, (bind_ok _ _ _ _ _ E). destruct (IH st1 M1) as [X|(e0 & st' & -> & X1 & X2)]; [left; exact X|right].
    exists e0, st'. split; [reflexivity|]. split; [exact X1|]. rewrite X2, M3, app_assoc; reflexivity.
  - destruct (Hw (r_out st) x) as (n & E). cbn [in_steps run]. rewrite try_ret. unfold bind at 1 2. unfold emit. rewrite E. set (st1 := up_out (r_out st ++ [x]) st).
    destruct (IH st1 Hs) as [X|(e0 & st' & -> & X1 & X2)]; [left; exact X|right]. exists e0, st'. split; [reflexivity|]. split; [exact X1|]. rewrite X2. unfold st1. cbn. rewrite concat_app, <- app_assoc. cbn. rewrite app_nil_r. reflexivity.
  - left. cbn [in_steps run]. rewrite try_ret. unfold bind. rewrite show_deaf. reflexivity.
  - left. cbn [in_steps run]. rewrite try_ret. unfold bind. rewrite show_deaf. reflexivity.
  - left. cbn [in_steps run]. rewrite try_ret. rewrite (bind_ok _ _ _ _ _ (inverse_deaf en st)). cbn [run]. rewrite try_ret. unfold bind. rewrite else_deaf. reflexivity.
  - left. cbn [in_steps run]. rewrite try_ret. rewrite (bind_ok _ _ _ _ _ (inverse_deaf en st)). cbn [run]. rewrite try_ret. unfold bind. rewrite else_deaf. reflexivity.
  - cbn [in_steps run]. rewrite bind_upd. exact (IH (up_scopes (sc :: r_scopes st) st) (at_scope _ _ _ _ Hs)).
  - cbn [in_steps run]. rewrite bind_upd. assert (Es : r_scopes st = sc :: cur) by apply Hs. rewrite Es. apply (IH (up_scopes (g sc :: cur) st)). destruct Hs as (X1 & X2 & X3). split; auto.
  - cbn [in_steps run]. assert (Es : r_scopes st = sc :: cur) by apply Hs. rewrite bind_get, Es, bind_upd. apply (IH (up_scopes cur st)). destruct Hs as (X1 & X2 & X3). split; auto.
Qed.
Lemma acts_deaf scs f n vs ps prop p st : acts w scs f n vs ps None prop true p -> at_state scs [] st ->
  run deaf en (f (own_ctx n vs ps prop) (Some own_tpl)) st = run deaf en p st.
Proof. intros H Hs. apply (H (own_ctx n vs ps prop) (Some own_tpl)); try reflexivity; [split; congruence|repeat split]. apply Hs. Qed.
Lemma performs_deaf scs f n vs ps prop l v st : performs w scs f n vs ps prop l v -> at_state scs [] st ->
  run deaf en (f (own_ctx n vs ps prop) (Some own_tpl)) st = run deaf en (in_steps own_tpl l v) st.
Proof. intros H Hs. apply (H (own_ctx n vs ps prop) own_tpl); try reflexivity. repeat split. apply Hs. Qed.
Lemma written_total s e ws v : exists out, helper_out w s e (writes ws v) out.
Proof. induction ws as [|[x esc] ws (out & IH)]; [eexists; constructor|]. destruct (stripped_total s e x) as (y & Hy). eexists. apply ho_writes; [exact Hy|exact IH]. Qed.
Lemma simple_out scs f n vs ps prop l v act pb pb' m body bs m' out s e : simple w true f -> performs w scs f n vs ps prop l v ->
  steps_out w scs act pb pb' m body bs m' scs l out -> pb' = pb /\ exists p, acts w scs f n vs ps None prop true p /\ helper_out w s e p out.
Proof.
  intros Hsi Hp Ho. destruct (Hsi scs n vs ps None prop) as (p & Ha & Hq). assert (Hs : at_state scs [] (here scs s e)) by (repeat split).
  pose proof (acts_deaf _ _ _ _ _ _ _ _ Ha Hs) as E1. rewrite (performs_deaf _ _ _ _ _ _ _ _ _ Hp Hs) in E1.
  destruct (steps_deaf _ _ _ _ _ _ _ _ _ _ _ v Ho _ Hs) as [X|(-> & st' & X1 & X2)].
  - exfalso. rewrite X in E1. destruct Hq as [(ws & u & ->)|(h & ->)]; [|destruct h; discriminate E1].
    destruct (written_total s e ws u) as (o & Hh). destruct (out_run w en eq_refl Hw s e _ o scs [] _ deaf Hh Hs eq_refl) as (v2 & st2 & R2 & _). rewrite R2 in E1. discriminate E1.
  - split; [reflexivity|]. exists p. split; [exact Ha|]. rewrite X1 in E1. destruct Hq as [(ws & u & ->)|(h & ->)]; [|destruct h; discriminate E1].
    destruct (written_total s e ws u) as (o & Hh). destruct (out_run w en eq_refl Hw s e _ o scs [] _ deaf Hh Hs eq_refl) as (v2 & st2 & R2 & (_ & _ & M2) & _). rewrite R2 in E1. injection E1 as _ <-.
    rewrite X2 in M2. cbn in M2. subst o. exact Hh.
Qed.
Lemma simple_err nm scs f n vs ps prop l v act pb m body bs m' out err : simple w true f -> performs w scs f n vs ps prop l v ->
  steps_err w nm act pb m body bs m' scs l out err -> out = [] /\ acts w scs f n vs ps None prop true (halt err).
Proof.
  intros Hsi Hp Ho. destruct (Hsi scs n vs ps None prop) as (p & Ha & Hq). assert (Hs : at_state scs [] (here scs false false)) by (repeat split).
  pose proof (acts_deaf _ _ _ _ _ _ _ _ Ha Hs) as E1. rewrite (performs_deaf _ _ _ _ _ _ _ _ _ Hp Hs) in E1.
  destruct (fall_deaf _ _ _ _ _ _ _ _ _ _ _ v Ho _ Hs) as [X|(e0 & st' & -> & X1 & X2)].
  - exfalso. rewrite X in E1. destruct Hq as [(ws & u & ->)|(h & ->)]; [|destruct h; discriminate E1].
    destruct (written_total false false ws u) as (o & Hh). destruct (out_run w en eq_refl Hw false false _ o scs [] _ deaf Hh Hs eq_refl) as (v2 & st2 & R2 & _). rewrite R2 in E1. discriminate E1.
  - rewrite X1 in E1. destruct Hq as [(ws & u & ->)|(h & ->)].
    + exfalso. destruct (written_total false false ws u) as (o & Hh). destruct (out_run w en eq_refl Hw false false _ o scs [] _ deaf Hh Hs eq_refl) as (v2 & st2 & R2 & _). rewrite R2 in E1. discriminate E1.
    + destruct h as [e'|]; [|discriminate E1]. injection E1 as -> ->. split; [exact (eq_sym X2)|exact Ha].
Qed.
(** in a world where every block helper and handler is simple, the standard ones apart *)
Hypothesis Hh : forall n f, assoc n (rg_helpers (w_reg w)) = Some f -> simple w true f \/ (In n block_helpers /\ builtin (w_plat w) n f).
Hypothesis Hb : forall f, rg_block_missing (w_reg w) = Some f -> simple w true f.
Lemma by_simple scs n name f prop : block_by w scs n name f prop -> simple w true f.
Proof. intros [g H1 H2|g v H1 H2 H3]; [|exact (Hb _ H3)]. destruct (Hh _ _ H1) as [H|H]; [exact H|contradiction]. Qed.
Lemma own_out scs act pb pb' s e n xs hs m body bs m' name f prop vs pairs ps l v out :
  block_by w scs n name f prop -> count_site (SBlock name) act < 32 ->
  args_value w scs (SBlock name :: act) xs vs -> hash_value w scs (SBlock name :: act) hs pairs -> map_of ps pairs ->
  performs w scs f name vs ps prop l v -> steps_out w scs (SBlock name :: act) pb pb' m body bs m' scs l out ->
  pb' = pb /\ exists p, helper_call w scs act true name f xs hs None prop p /\ helper_out w s e p out.
Proof.
  intros H1 H2 H3 H4 H5 H6 H7. destruct (simple_out _ _ _ _ _ _ _ _ _ _ _ _ _ _ _ _ s e (by_simple _ _ _ _ _ H1) H6 H7) as (-> & p & Ha & Ho). split; [reflexivity|]. exists p. split; [|exact Ho]. split; [exact H2|]. exists vs, pairs, ps. auto.
Qed.
Lemma own_err nm scs act pb n xs hs m body bs m' name f prop vs pairs ps l v out err :
  block_by w scs n name f prop -> count_site (SBlock name) act < 32 ->
  args_value w scs (SBlock name :: act) xs vs -> hash_value w scs (SBlock name :: act) hs pairs -> map_of ps pairs ->
  performs w scs f name vs ps prop l v -> steps_err w nm (SBlock name :: act) pb m body bs m' scs l out err ->
  out = [] /\ helper_call_fails w nm scs act true name f xs hs None prop err.
Proof.
  intros H1 H2 H3 H4 H5 H6 H7. destruct (simple_err _ _ _ _ _ _ _ _ _ _ _ _ _ _ _ _ _ (by_simple _ _ _ _ _ H1) H6 H7) as (-> & Ha). split; [reflexivity|]. apply hc_run. split; [exact H2|]. exists vs, pairs, ps. auto.
Qed.
End World.
