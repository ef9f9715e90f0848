(** * StateFacts: what rendering does to output, scopes and call stack (instances of UnaryFacts). *)
From Coq Require Import Lia String.
From Verif Require Import Str Json Ast ErrInfo Parser Render Helpers StrFacts RelFacts UnaryFacts Spec_Render.
Open Scope nat_scope. Open Scope list_scope.

(** ** closing the knot, once for all instances *)
Section Close.
Variable Inv : rst -> Prop.
Variable TO : rst -> rst -> Prop.
Variable TE : rerr -> rst -> rst -> Prop.
Hypothesis F : frame Inv TO TE.
Variable en : env.
Hypothesis Hemit : forall s, spec Inv TO TE (emit en s).
Variable G : helper -> Prop.
Hypothesis Hlocal : forall s, Inv s -> Forall (fun kh => G (snd kh)) (r_local s).
Hypothesis Hreg : Forall (fun kh => G (snd kh)) (rg_helpers (en_reg en)).
Hypothesis Hlink : forall h, rg_link (en_reg en) = Some h -> G h.
Hypothesis Hmissing : forall h, rg_missing (en_reg en) = Some h -> G h.
Hypothesis Hblockm : forall h, rg_block_missing (en_reg en) = Some h -> G h.
Definition knot_spec (K : knot) : Prop :=
  (forall src n tr, spec Inv TO TE (k_node K en src n tr))
  /\ (forall src c, spec Inv TO TE (k_call K en src c))
  /\ (forall src c, spec Inv TO TE (k_stmt K en src c)).
Hypothesis Hrun : forall K, knot_spec K -> forall f ctx t, G f -> spec Inv TO TE (run K en (f ctx t)).
Lemma tie_spec n : knot_spec (tie n).
Proof.
  induction n as [|n IH]; [repeat split; intros; intros st Hi; exact I|]. pose proof (Hrun _ IH) as Hr. destruct IH as (A & B & C).
  cbn [tie]. unfold knot_spec. cbn [k_node k_call k_stmt]. repeat split; intros.
  - eapply spec_node; eauto.
  - eapply spec_call; eauto.
  - eapply spec_stmt; eauto.
Qed.
Lemma tie_render n t : spec Inv TO TE (render_ (tie n) en t).
Proof. destruct (tie_spec n) as (A & B & C). eapply spec_render; eauto. Qed.
Lemma tie_template n t : spec Inv TO TE (template_ (tie n) en t).
Proof. destruct (tie_spec n) as (A & B & C). eapply spec_template; eauto. Qed.
Lemma tie_inverse n t : spec Inv TO TE (inverse (tie n) en t).
Proof. destruct (tie_spec n) as (A & B & C). eapply spec_inverse; eauto. Qed.
End Close.

(** [run] as a chain of binds *)
Lemma buffer_state K en t st : match buffer K en t st with ROk _ s | RErr _ s => s = st | _ => True end.
Proof. unfold buffer. destruct (template_ _ _ _ _); try exact I; reflexivity. Qed.
Lemma once_state K en f c d st : match once_ K en f c d st with ROk _ s => s = st | RErr e s => s = st /\ not_io e | _ => True end.
Proof.
  unfold once_. destruct (compile _ _ _); try exact I; [|split; [reflexivity | exact I]]. destruct (render_ _ _ _ _); try exact I; [reflexivity|]. split; [reflexivity | exact I].
Qed.

(** running any program at all, when errors are no worse than successes *)
Section AnyRun.
Variable Inv : rst -> Prop.
Variable TO : rst -> rst -> Prop.
Variable TE : rerr -> rst -> rst -> Prop.
Hypothesis F : frame Inv TO TE.
Hypothesis Hcatch : forall e a b, TE e a b -> TO a b.
Hypothesis Hthrow : forall e s, TE e s s.
Hypothesis Hsc : forall v s, Inv s -> Inv (up_scopes v s) /\ TO s (up_scopes v s).
Hypothesis Hlo : forall v s, Inv s -> Inv (up_local v s) /\ TO s (up_local v s).
Variable en : env.
Hypothesis Hemit : forall s, spec Inv TO TE (emit en s).
Lemma spec_catch {A B} (m : M A) (f : hres A -> M B) : spec Inv TO TE m -> (forall r, spec Inv TO TE (f r)) -> spec Inv TO TE (mcatch m f).
Proof.
  intros Hm Hf st Hi. specialize (Hm st Hi). unfold mcatch.
  assert (X : forall r s, Inv s -> TO st s -> post Inv TO TE st (f r s)).
  { intros r s Hs Ht. specialize (Hf r s Hs). destruct (f r s) as [b s'|e s'|p|]; simpl in Hf |- *; try exact I; destruct Hf as [H1 H2].
    - split; [exact H1 | exact (fr_trans _ _ _ F _ _ _ Ht H2)].
    - split; [exact H1 | exact (fr_err _ _ _ F _ _ _ _ Ht H2)]. }
  destruct (m st) as [a s|e s|p|]; simpl in Hm; try exact I; destruct Hm as [H1 H2]; apply X; eauto.
Qed.
Lemma any_run K : knot_spec Inv TO TE en K -> forall p, spec Inv TO TE (run K en p).
Proof.
  intros (Hn & Hc & Hs). assert (St : forall A (m : M A), (forall st, match m st with ROk _ s | RErr _ s => s = st | _ => True end) -> spec Inv TO TE m).
  { intros A m H st Hi. specialize (H st). destruct (m st); simpl; try exact I; subst; (split; [exact Hi|]); [apply (fr_refl _ _ _ F) | apply Hthrow]. }
  induction p; cbn [run].
  - apply (spec_ret _ _ _ F).
  - intros st Hi. split; [exact Hi | apply Hthrow].
  - intros st Hi. exact I.
  - apply spec_catch; [eapply spec_template; eauto | auto].
  - apply spec_catch; [eapply spec_render; eauto | auto].
  - apply spec_catch; [apply St; intros; apply buffer_state | auto].
  - apply spec_catch; [apply St; intros st; pose proof (once_state K en file content data st) as X; destruct (once_ K en file content data st); tauto | auto].
  - apply spec_catch; [eapply spec_inverse; eauto | auto].
  - apply spec_catch; [eapply spec_write; eauto | auto].
  - apply spec_catch; [apply Hemit | auto].
  - apply (spec_bind _ _ _ F); [apply spec_upd; intros; apply Hsc; assumption | auto].
  - apply spec_read. intros st. destruct (r_scopes st); [auto|]. apply (spec_bind _ _ _ F); [apply spec_upd; intros; apply Hsc; assumption | auto].
  - apply (spec_bind _ _ _ F); [|auto]. apply spec_upd. intros st Hi. destruct (r_scopes st); [split; [exact Hi | apply (fr_refl _ _ _ F)] | apply Hsc, Hi].
  - apply spec_catch; [eapply spec_evaluate; eauto | auto].
  - apply (spec_bind _ _ _ F); [apply spec_upd; intros; apply Hlo; assumption | auto].
  - apply (spec_bind _ _ _ F); [apply spec_upd; intros; apply Hlo; assumption | auto].
  - auto.
  - auto.
  - apply spec_read. auto.
  - auto.
  - auto.
Qed.
Definition anyh (h : helper) : Prop := True.
Lemma any_tie n : knot_spec Inv TO TE en (tie n).
Proof.
  apply (tie_spec Inv TO TE F en Hemit anyh); try (intros; exact I).
  - intros. apply Forall_forall. intros; exact I.
  - apply Forall_forall. intros; exact I.
  - intros. apply any_run. assumption.
Qed.
End AnyRun.

(** ** 1. output only grows *)
Definition grows (st s : rst) : Prop := exists xs, r_out s = r_out st ++ xs.
Lemma grows_refl s : grows s s.
Proof. exists []. rewrite app_nil_r. reflexivity. Qed.
Lemma grows_trans a b c : grows a b -> grows b c -> grows a c.
Proof. intros [x Hx] [y Hy]. exists (x ++ y). rewrite Hy, Hx, app_assoc. reflexivity. Qed.
Lemma grows_eq a b : r_out b = r_out a -> grows a b.
Proof. intros H. exists []. rewrite H, app_nil_r. reflexivity. Qed.
Lemma grows_frame : frame (fun _ => True) grows (fun _ => grows).
Proof.
  constructor; intros; repeat split; try exact I; try apply grows_refl; try (apply grows_eq; reflexivity); eauto using grows_trans.
Qed.
Lemma grows_emit en s : spec (fun _ => True) grows (fun _ => grows) (emit en s).
Proof. intros st _. unfold emit. destruct (en_write _ _ _); (split; [exact I | exists [s]; reflexivity]). Qed.
Lemma grows_tie en n : knot_spec (fun _ => True) grows (fun _ => grows) en (tie n).
Proof.
  apply any_tie.
  - apply grows_frame.
  - auto.
  - intros. apply grows_refl.
  - intros. split; [exact I | apply grows_eq; reflexivity].
  - intros. split; [exact I | apply grows_eq; reflexivity].
  - apply grows_emit.
Qed.

(** ** 2. call stack limits *)
Definition limits (l : list site) : Prop :=
  forall n, count_site (SHelper n) l <= stack_max /\ count_site (SBlock n) l <= stack_max /\ count_site (SPartial n) l <= 1.

(** ** 3. I/O errors *)
Lemma accepts_nil en out : accepts en out [].
Proof. intros a x b H. destruct a; discriminate H. Qed.
Lemma accepts_app en out xs ys : accepts en out xs -> accepts en (out ++ xs) ys -> accepts en out (xs ++ ys).
Proof.
  intros Hx Hy a x b E. destruct (app_eq_app _ _ _ _ E) as (l & [[-> H]|[-> H]]).
  - destruct l as [|y l]; simpl in H.
    + destruct (Hy [] x b (eq_sym H)) as [n Hn]. exists n. rewrite <- Hn. f_equal. rewrite !app_nil_r. reflexivity.
    + injection H as <- ->. exact (Hx a x l eq_refl).
  - destruct (Hy l x b H) as [n Hn]. exists n. rewrite app_assoc. exact Hn.
Qed.
Lemma refuses_app en out xs ys k : accepts en out xs -> refuses_last en (out ++ xs) ys k -> refuses_last en out (xs ++ ys) k.
Proof.
  intros Hx (zs & z & -> & Hz & Hk). exists (xs ++ zs), z. rewrite app_assoc. split; [reflexivity|]. split; [apply accepts_app; assumption|].
  rewrite app_assoc. exact Hk.
Qed.
Section Io.
Variable en : env.
Definition io_ok (st s : rst) : Prop := exists xs, r_out s = r_out st ++ xs /\ accepts en (r_out st) xs.
Definition io_err (e : rerr) (st s : rst) : Prop :=
  exists xs, r_out s = r_out st ++ xs /\ (accepts en (r_out st) xs \/ exists k, e = EIo k /\ refuses_last en (r_out st) xs k).
Definition io_inv : rst -> Prop := all_locals passes_io.
Lemma io_eq a b : r_out b = r_out a -> io_ok a b.
Proof. intros H. exists []. rewrite H, app_nil_r. split; [reflexivity | apply accepts_nil]. Qed.
Lemma io_throw e s : io_err e s s.
Proof. exists []. rewrite app_nil_r. split; [reflexivity | left; apply accepts_nil]. Qed.
Lemma io_trans a b c : io_ok a b -> io_ok b c -> io_ok a c.
Proof.
  intros (x & Hx & Ax) (y & Hy & Ay). exists (x ++ y). rewrite Hy, Hx, app_assoc. split; [reflexivity|]. apply accepts_app; [exact Ax|]. rewrite <- Hx. exact Ay.
Qed.
Lemma io_err_trans e a b c : io_ok a b -> io_err e b c -> io_err e a c.
Proof.
  intros (x & Hx & Ax) (y & Hy & Ay). exists (x ++ y). rewrite Hy, Hx, app_assoc. split; [reflexivity|]. rewrite Hx in Ay. destruct Ay as [Ay|(k & -> & Ay)].
  - left. apply accepts_app; assumption.
  - right. exists k. split; [reflexivity|]. apply refuses_app; assumption.
Qed.
Lemma io_frame : frame io_inv io_ok io_err.
Proof.
  constructor; intros; try split; try assumption; try (apply io_eq; reflexivity); try (apply io_throw); eauto using io_trans, io_err_trans.
Qed.
Lemma io_emit s : spec io_inv io_ok io_err (emit en s).
Proof.
  intros st Hi. unfold emit. destruct (en_write en (r_out st) s) as [n|k] eqn:E; (split; [exact Hi|]); exists [s]; (split; [reflexivity|]).
  - intros a x b Hx. destruct a as [|y [|z a]]; try discriminate Hx. injection Hx as <- _. exists n. rewrite app_nil_r. exact E.
  - right. exists k. split; [reflexivity|]. exists [], s. split; [reflexivity|]. split; [apply accepts_nil|]. rewrite app_nil_r. exact E.
Qed.
Lemma io_catch {A B} (m : M A) (f : hres A -> M B) : spec io_inv io_ok io_err m -> (forall r, spec io_inv io_ok io_err (f r)) ->
  (forall i st, f (HErr (EIo i)) st = RErr (EIo i) st) -> spec io_inv io_ok io_err (mcatch m f).
Proof.
  intros Hm Hf Hio st Hi. specialize (Hm st Hi). unfold mcatch.
  assert (X : forall r s, io_inv s -> io_ok st s -> post io_inv io_ok io_err st (f r s)).
  { intros r s Hs Ht. specialize (Hf r s Hs). destruct (f r s) as [b s'|e s'|p|]; simpl in Hf |- *; try exact I; destruct Hf as [H1 H2].
    - split; [exact H1 | exact (io_trans _ _ _ Ht H2)].
    - split; [exact H1 | exact (io_err_trans _ _ _ _ Ht H2)]. }
  destruct (m st) as [a s|e s|p|]; simpl in Hm; try exact I; destruct Hm as [H1 H2]; [apply X; assumption|].
  destruct H2 as (xs & Hx & [Ha|(k & -> & Hr)]).
  - apply X; [exact H1|]. exists xs. auto.
  - rewrite Hio. split; [exact H1|]. exists xs. split; [exact Hx|]. right. exists k. auto.
Qed.
(** [m] leaves the state alone *)
Lemma io_still {A} (m : M A) : (forall st, match m st with ROk _ s | RErr _ s => s = st | _ => True end) -> spec io_inv io_ok io_err m.
Proof. intros H st Hi. specialize (H st). destruct (m st); simpl; try exact I; subst; (split; [exact Hi|]); [apply io_eq; reflexivity | apply io_throw]. Qed.
Lemma still_catch {A B} (m : M A) (f : hres A -> M B) : (forall st, match m st with ROk _ s | RErr _ s => s = st | _ => True end) ->
  (forall r, spec io_inv io_ok io_err (f r)) -> spec io_inv io_ok io_err (mcatch m f).
Proof. intros H Hf st Hi. unfold mcatch. specialize (H st). destruct (m st); try exact I; subst; apply Hf, Hi. Qed.
Lemma evaluate_state s st : match evaluate en s st with ROk _ s' | RErr _ s' => s' = st | _ => True end.
Proof.
  unfold evaluate. destruct (path_from_str _ s) as [[p|] fs|e fs|p|]; try exact I; try reflexivity. unfold mlookup, bind, get. destruct (Render.lookup _ _ _ _); [reflexivity | exact I].
Qed.
Lemma io_run K : knot_spec io_inv io_ok io_err en K -> forall p, passes_io p -> spec io_inv io_ok io_err (run K en p).
Proof.
  intros (Hn & Hc & Hs). pose proof io_frame as F. induction p; cbn [run passes_io]; intros Hp.
  - apply (spec_ret _ _ _ F).
  - intros st Hi. split; [exact Hi | apply io_throw].
  - intros st Hi. exact I.
  - destruct Hp as [Hp Hio]. apply io_catch; [eapply spec_template; eauto | auto | intros; rewrite Hio; reflexivity].
  - destruct Hp as [Hp Hio]. apply io_catch; [eapply spec_render; eauto | auto | intros; rewrite Hio; reflexivity].
  - apply still_catch; [intros; apply buffer_state | auto].
  - apply still_catch; [intros st; pose proof (once_state K en file content data st) as X; destruct (once_ K en file content data st); tauto | auto].
  - destruct Hp as [Hp Hio]. apply io_catch; [eapply spec_inverse; eauto | auto | intros; rewrite Hio; reflexivity].
  - destruct Hp as [Hp Hio]. apply io_catch; [eapply spec_write; eauto using io_emit | auto | intros; rewrite Hio; reflexivity].
  - destruct Hp as [Hp Hio]. apply io_catch; [apply io_emit | auto | intros; rewrite Hio; reflexivity].
  - apply (spec_bind _ _ _ F); [apply spec_upd; intros; split; [assumption | apply io_eq; reflexivity] | auto].
  - apply spec_read. intros st. destruct (r_scopes st); [auto|]. apply (spec_bind _ _ _ F); [apply spec_upd; intros; split; [assumption | apply io_eq; reflexivity] | auto].
  - apply (spec_bind _ _ _ F); [|auto]. apply spec_upd. intros st Hi. destruct (r_scopes st); (split; [exact Hi | apply io_eq; reflexivity]).
  - apply still_catch; [intros; apply evaluate_state | auto].
  - destruct Hp as [Hh Hp]. apply (spec_bind _ _ _ F); [|auto]. apply spec_upd. intros st Hi. split; [|apply io_eq; reflexivity].
    intros n g Hg c t. cbn [up_local r_local] in Hg. apply assoc_set_in in Hg. destruct Hg as [[-> ->]|Hg]; [apply Hh | exact (Hi n g Hg c t)].
  - apply (spec_bind _ _ _ F); [|auto]. apply spec_upd. intros st Hi. split; [|apply io_eq; reflexivity].
    intros n g Hg c t. cbn [up_local r_local] in Hg. apply assoc_del_in in Hg. exact (Hi n g Hg c t).
  - auto.
  - auto.
  - apply spec_read. auto.
  - auto.
  - auto.
Qed.
Lemma io_tie n : all_helpers passes_io (en_reg en) -> knot_spec io_inv io_ok io_err en (tie n).
Proof.
  intros (H1 & H2 & H3 & H4). apply (tie_spec _ _ _ io_frame en io_emit (fun h => forall c t, passes_io (h c t))); auto.
  - intros s Hs. apply Forall_forall. intros [k h] Hk. exact (Hs k h Hk).
  - apply Forall_forall. intros [k h] Hk. exact (H1 k h Hk).
  - intros K HK f ctx t Hf. apply io_run; [exact HK | apply Hf].
Qed.
End Io.

(** ** 4. scopes and call stack are restored *)
Section Bal.
Variable en : env.
Definition same_stacks (st s : rst) : Prop := r_scopes s = r_scopes st /\ r_stack s = r_stack st.
Definition any_err (e : rerr) (st s : rst) : Prop := True.
Definition bal_inv : rst -> Prop := all_locals (balanced (Some 0)).
Lemma bal_frame : frame bal_inv same_stacks any_err.
Proof.
  constructor; unfold same_stacks, any_err; intros; try exact I; try (split; [assumption|]; split; reflexivity); try (split; reflexivity); try assumption.
  - destruct H, H0; split; congruence.
  - destruct H0 as [H0 H1]. split; [assumption|]. split; [exact H0|]. cbn. rewrite H1. reflexivity.
  - destruct H0 as [H0 H1]. split; [assumption|]. split; [cbn; rewrite H0; reflexivity | exact H1].
Qed.
Lemma bal_emit s : spec bal_inv same_stacks any_err (emit en s).
Proof. intros st Hi. unfold emit. destruct (en_write _ _ _); (split; [exact Hi|]); [split; reflexivity | exact I]. Qed.
Definition run_bal (d : option nat) (st : rst) (r : rres (option json)) : Prop :=
  match r with
  | ROk _ s => bal_inv s /\ r_stack s = r_stack st /\ match d with Some n => exists own, length own = n /\ r_scopes st = own ++ r_scopes s | None => False end
  | RErr _ s => bal_inv s
  | _ => True
  end.
Ltac bal_locals := intros ? ? Hg; cbn [up_local r_local] in Hg.
Lemma bal_run K : knot_spec bal_inv same_stacks any_err en K -> forall p d, balanced d p -> forall st, bal_inv st ->
  match d with Some n => n <= length (r_scopes st) | None => True end -> run_bal d st (run K en p st).
Proof.
  intros (Hn & Hc & Hs). pose proof bal_frame as F.
  (* a step of the renderer that keeps the scopes when it succeeds *)
  assert (X : forall A (m : M A) (k : hres A -> hprog) d, spec bal_inv same_stacks any_err m ->
     (forall r d, balanced d (k r) -> forall st, bal_inv st -> match d with Some n => n <= length (r_scopes st) | None => True end -> run_bal d st (run K en (k r) st)) ->
     (forall v, balanced d (k (HOk v))) -> (forall e, balanced None (k (HErr e))) ->
     forall st, bal_inv st -> match d with Some n => n <= length (r_scopes st) | None => True end -> run_bal d st (mcatch m (fun r => run K en (k r)) st)).
  { intros A m k d Hm Hk Hok Herr st Hi Hd. specialize (Hm st Hi). unfold mcatch. destruct (m st) as [a s|e s|p|]; simpl in Hm; try exact I; destruct Hm as [H1 H2].
    - destruct H2 as [H2 H3]. specialize (Hk (HOk a) d (Hok a) s H1). rewrite H2 in Hk. specialize (Hk Hd). unfold run_bal in *. rewrite H2, H3 in Hk. exact Hk.
    - specialize (Hk (HErr e) None (Herr e) s H1 I). unfold run_bal in *. destruct (run K en (k (HErr e)) s); try exact I; [|exact Hk]. destruct Hk as (_ & _ & []). }
  assert (Y : forall A (m : M A) (k : hres A -> hprog) d, (forall st, match m st with ROk _ s | RErr _ s => r_local s = r_local st /\ same_stacks st s | _ => True end) ->
     (forall r d, balanced d (k r) -> forall st, bal_inv st -> match d with Some n => n <= length (r_scopes st) | None => True end -> run_bal d st (run K en (k r) st)) ->
     (forall v, balanced d (k v)) ->
     forall st, bal_inv st -> match d with Some n => n <= length (r_scopes st) | None => True end -> run_bal d st (mcatch m (fun r => run K en (k r)) st)).
  { intros A m k d Hm Hk Hok st Hi Hd. specialize (Hm st). unfold mcatch.
    assert (Z : forall r s, r_local s = r_local st -> same_stacks st s -> run_bal d st (run K en (k r) s)).
    { intros r s El [H2 H3]. assert (Hi' : bal_inv s) by (unfold bal_inv, all_locals; rewrite El; exact Hi).
      specialize (Hk r d (Hok r) s Hi'). rewrite H2 in Hk. specialize (Hk Hd). unfold run_bal in *. rewrite H2, H3 in Hk. exact Hk. }
    destruct (m st) as [a s|e s|p|]; try exact I; apply Z; apply Hm. }
  induction p; cbn [run balanced]; intros d Hp st Hi Hd.
  - subst d. split; [exact Hi|]. split; [reflexivity|]. exists []. auto.
  - exact Hi.
  - exact I.
  - destruct Hp as [Hp Hio]. apply X; auto; [eapply spec_template; eauto | intros []; exact Hp].
  - destruct Hp as [Hp Hio]. apply X; auto; [eapply spec_render; eauto | intros []; exact Hp].
  - apply Y; auto. intros s. pose proof (buffer_state K en t s) as B. destruct (buffer K en t s); try exact I; subst; repeat split.
  - apply Y; auto. intros s. pose proof (once_state K en file content data s) as B. destruct (once_ K en file content data s); try exact I; [|destruct B as [B _]]; subst; repeat split.
  - destruct Hp as [Hp Hio]. apply X; auto. eapply spec_inverse; eauto.
  - apply Y; auto. intros st0. unfold write_str, bind, get, ret.
    destruct (if ts_end (r_trim st0) then _ else _); [repeat split|]. unfold emit. destruct (en_write _ _ _); repeat split.
  - apply Y; auto. intros st0. unfold emit. destruct (en_write _ _ _); repeat split.
  - cbv beta delta [bind upd]. specialize (IHp (option_map S d) Hp (up_scopes (s :: r_scopes st) st) Hi).
    assert (Hd' : match option_map S d with Some n => n <= length (r_scopes (up_scopes (s :: r_scopes st) st)) | None => True end) by (destruct d; simpl in *; lia).
    specialize (IHp Hd'). unfold run_bal in *. destruct (run K en p (up_scopes (s :: r_scopes st) st)) as [v s'|e s'|q|]; try exact I; [|exact IHp].
    destruct IHp as (H1 & H2 & H3). split; [exact H1|]. split; [exact H2|]. destruct d as [n|]; simpl in H3; [|exact H3]. destruct H3 as (own & Ho & He).
    destruct own as [|o own]; [discriminate Ho|]. simpl in He. injection He as _ He. exists own. simpl in Ho. split; [lia | exact He].
  - cbv beta delta [bind get]. destruct d as [[|n]|]; [contradiction| |].
    + destruct (r_scopes st) as [|s ss] eqn:Es; [simpl in Hd; lia|]. cbv beta delta [upd]. specialize (H (Some s) (Some n) (Hp s) (up_scopes ss st) Hi).
      simpl in Hd. specialize (H ltac:(cbn; lia)). unfold run_bal in *. destruct (run K en (k (Some s)) (up_scopes ss st)) as [v s'|e s'|q|]; try exact I; [|exact H].
      destruct H as (H1 & H2 & own & Ho & He). split; [exact H1|]. split; [exact H2|]. exists (s :: own). simpl. split; [congruence|]. rewrite Es. cbn in He. congruence.
    + destruct (r_scopes st) as [|s ss] eqn:Es.
      * specialize (H None None (Hp None) st Hi I). exact H.
      * cbv beta delta [upd]. specialize (H (Some s) None (Hp (Some s)) (up_scopes ss st) Hi I). unfold run_bal in *.
        destruct (run K en (k (Some s)) (up_scopes ss st)) as [v s'|e s'|q|]; try exact I; [|exact H]. destruct H as (_ & _ & []).
  - cbv beta delta [bind upd]. destruct Hp as [Hd0 Hp].
    destruct (r_scopes st) as [|s ss] eqn:Es.
    + apply IHp; [exact Hp | exact Hi | rewrite Es; exact Hd].
    + specialize (IHp d Hp (up_scopes (f s :: ss) st) Hi). assert (Hd' : match d with Some n => n <= length (r_scopes (up_scopes (f s :: ss) st)) | None => True end) by (destruct d; exact Hd).
      specialize (IHp Hd'). unfold run_bal in *. destruct (run K en p (up_scopes (f s :: ss) st)) as [v s'|e s'|q|]; try exact I; [|exact IHp].
      destruct IHp as (H1 & H2 & H3). split; [exact H1|]. split; [exact H2|]. destruct d as [n|]; [|exact H3]. destruct H3 as (own & Ho & He).
      destruct own as [|o own]; [destruct n; [contradiction Hd0; reflexivity | discriminate Ho]|]. cbn in He. injection He as _ He. exists (s :: own). split; [exact Ho|]. rewrite Es. cbn. congruence.
  - apply Y; auto. intros st0. pose proof (evaluate_state en p st0) as B. destruct (evaluate en p st0); try exact I; subst; repeat split.
  - cbv beta delta [bind upd]. destruct Hp as [Hh Hp]. assert (Hi' : bal_inv (up_local (assoc_set name h (r_local st)) st)).
    { intros n g Hg c t. cbn [up_local r_local] in Hg. apply assoc_set_in in Hg. destruct Hg as [[-> ->]|Hg]; [apply Hh | exact (Hi n g Hg c t)]. }
    exact (IHp d Hp _ Hi' Hd).
  - cbv beta delta [bind upd]. assert (Hi' : bal_inv (up_local (assoc_del name (r_local st)) st)).
    { intros n g Hg c t. cbn [up_local r_local] in Hg. apply assoc_del_in in Hg. exact (Hi n g Hg c t). }
    exact (IHp d Hp _ Hi' Hd).
  - apply H; auto.
  - apply H; auto.
  - cbv beta delta [bind get]. apply H; auto.
  - apply H; auto.
  - apply IHp; auto.
Qed.
Lemma bal_tie n : all_helpers (balanced (Some 0)) (en_reg en) -> knot_spec bal_inv same_stacks any_err en (tie n).
Proof.
  intros (H1 & H2 & H3 & H4). apply (tie_spec _ _ _ bal_frame en bal_emit (fun h => forall c t, balanced (Some 0) (h c t))); auto.
  - intros s Hs. apply Forall_forall. intros [k h] Hk. exact (Hs k h Hk).
  - apply Forall_forall. intros [k h] Hk. exact (H1 k h Hk).
  - intros K HK f ctx t Hf st Hi. pose proof (bal_run K HK _ _ (Hf ctx t) st Hi (Nat.le_0_l _)) as X. unfold run_bal in X.
    destruct (run K en (f ctx t) st) as [v s|e s|p|]; simpl; try exact I; [|split; [exact X | exact I]].
    destruct X as (X1 & X2 & own & Ho & X3). destruct own; [|discriminate Ho]. split; [exact X1|]. split; [symmetry; exact X3 | exact X2].
Qed.
End Bal.
