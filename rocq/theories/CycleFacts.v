(** * CycleFacts: partials that include each other never render successfully. *)
From Coq Require Import Lia String.
From Verif Require Import Str Json Ast ErrInfo Parser Render Helpers StrFacts Spec_Render RelFacts UnaryFacts StateFacts TermFacts LimitFacts.
Open Scope nat_scope. Open Scope list_scope.

(** the call stack only grows during a call that does not ... and partials are only [@partial-block] *)
Definition pinv (st : rst) : Prop := forall n t, In (n, t) (r_partials st) -> n = partial_block.
Definition above (st s : rst) : Prop := exists xs, r_stack s = xs ++ r_stack st.
Lemma above_eq a b : r_stack b = r_stack a -> above a b.
Proof. intros H. exists []. exact H. Qed.
Lemma above_trans a b c : above a b -> above b c -> above a c.
Proof. intros [x Hx] [y Hy]. exists (y ++ x). rewrite Hy, Hx, app_assoc. reflexivity. Qed.
Lemma above_push x s s' : above (push_site x s) s' -> above s s'.
Proof. intros [xs H]. exists (xs ++ [x]). rewrite H. cbn. rewrite <- app_assoc. reflexivity. Qed.
Lemma above_frame : frame pinv above (fun _ => above).
Proof.
  constructor; intros; try (split; [assumption|]); try (apply above_eq; reflexivity); try assumption; eauto using above_trans.
  - split; [|apply above_eq; reflexivity]. intros n u Hn. cbn in Hn. apply assoc_set_in in Hn. destruct Hn as [[-> _]|Hn]; [reflexivity | exact (H n u Hn)].
  - destruct H0 as [xs Hx]. cbn in Hx. destruct xs as [|y xs]; [exists []; cbn; rewrite Hx; reflexivity|]. exists (xs ++ [x]). cbn. rewrite Hx. cbn. rewrite <- app_assoc. reflexivity.
  - exact (above_push _ _ _ H).
Qed.
Lemma above_emit en s : spec pinv above (fun _ => above) (emit en s).
Proof. intros st H. unfold emit. destruct (en_write _ _ _); (split; [exact H | apply above_eq; reflexivity]). Qed.
Lemma above_tie en n : knot_spec pinv above (fun _ => above) en (tie n).
Proof.
  apply any_tie.
  - apply above_frame.
  - auto.
  - intros. apply above_eq. reflexivity.
  - intros. split; [assumption | apply above_eq; reflexivity].
  - intros. split; [assumption | apply above_eq; reflexivity].
  - apply above_emit.
Qed.
Definition succeeds {A} (r : rres A) : Prop := match r with ROk _ _ => True | _ => False end.
(** names of [C] that are not active *)
Fixpoint idle (C : list str) (l : list site) : nat :=
  match C with [] => 0 | n :: C => (if existsb (site_eq (SPartial n)) l then 0 else 1) + idle C l end.
Lemma active_app n xs l : existsb (site_eq (SPartial n)) l = true -> existsb (site_eq (SPartial n)) (xs ++ l) = true.
Proof. intros H. rewrite existsb_app, H. apply Bool.orb_true_r. Qed.
Lemma idle_app C xs l : idle C (xs ++ l) <= idle C l.
Proof.
  induction C as [|n C IH]; simpl; [lia|]. destruct (existsb (site_eq (SPartial n)) l) eqn:E; [rewrite (active_app _ _ _ E); lia|].
  destruct (existsb _ (xs ++ l)); lia.
Qed.
Lemma idle_push C n l : In n C -> existsb (site_eq (SPartial n)) l = false -> idle C (SPartial n :: l) < idle C l.
Proof.
  induction C as [|m C IH]; intros Hn E; [contradiction|]. cbn [idle]. pose proof (idle_app C [SPartial n] l) as Ha. cbn [app] in Ha.
  destruct (streq m n) eqn:Em.
  - apply streq_eq in Em. subst m. rewrite E. cbn [existsb]. rewrite site_eq_refl. cbn. lia.
  - destruct Hn as [->|Hn]; [rewrite streq_refl in Em; discriminate|]. specialize (IH Hn E). cbn [existsb]. change (site_eq (SPartial m) (SPartial n)) with (streq m n). rewrite Em. cbn [orb]. lia.
Qed.
Lemma bind_ok {A B} (m : M A) (f : A -> M B) st a s : m st = ROk a s -> bind m f st = f a s.
Proof. intros H. unfold bind. rewrite H. reflexivity. Qed.
Lemma bind_get {B} (f : rst -> M B) st : bind get f st = f st st.
Proof. reflexivity. Qed.
Lemma bind_upd {B} (f : rst -> rst) (g : unit -> M B) st : bind (upd f) g st = g tt (f st).
Proof. reflexivity. Qed.
Lemma bind_ret {A B} (a : A) (g : A -> M B) st : bind (ret a) g st = g a st.
Proof. reflexivity. Qed.
Section Cyc.
Variable en : env.
Variable C : list str.
Hypothesis HC : cyclic (en_reg en) C.
Notation spec := (spec pinv above (fun _ => above)).
(** a step that is reached only if the ones before succeed *)
Lemma fails_bind {A B} (m : M A) (f : A -> M B) st : spec m -> pinv st ->
  (forall a s, pinv s -> above st s -> ~ succeeds (f a s)) -> ~ succeeds (bind m f st).
Proof. intros Hm Hi Hf. specialize (Hm st Hi). unfold bind. destruct (m st); simpl; auto. destruct Hm as [H1 H2]. apply Hf; assumption. Qed.
Lemma fails_first {A B} (m : M A) (f : A -> M B) st : ~ succeeds (m st) -> ~ succeeds (bind m f st).
Proof. unfold bind. destruct (m st); simpl; auto; tauto. Qed.
Lemma fails_iter src (step : node -> trim_state -> bool -> bool -> M unit) x ns : In x ns ->
  (forall n tr a b, spec (step n tr a b)) -> forall st, pinv st ->
  (forall tr a b s, pinv s -> above st s -> ~ succeeds (step x tr a b s)) ->
  forall prev hint, ~ succeeds (iter_nodes src step prev hint ns st).
Proof.
  intros Hx Hs. induction ns as [|n ns IH]; [contradiction|]. intros st Hi Hf prev hint. cbn [iter_nodes].
  destruct (match prev with Some b => (b, hint) | None => _ end) as [start hint'].
  apply fails_bind; [|exact Hi|].
  { destruct ns; [apply (spec_ret _ _ _ above_frame)|]. apply (spec_bind _ _ _ above_frame); [apply spec_need, above_frame | intros; apply (spec_ret _ _ _ above_frame)]. }
  intros stop s1 H1 A1. apply fails_bind; [apply spec_need, above_frame | exact H1|]. intros hn s2 H2 A2.
  destruct Hx as [->|Hx].
  - apply fails_first. apply Hf; eauto using above_trans.
  - apply fails_bind; [apply Hs | exact H2|]. intros [] s3 H3 A3. apply IH; auto. intros. apply Hf; eauto using above_trans.
Qed.
Lemma partial_fails k : forall fuel src c p n pb st, pinv st -> idle C (r_stack st) < k ->
  c_target c = TPath p -> path_str src p = Some n -> path_is_simple p = true -> In n C ->
  ~ succeeds (render_partial (tie fuel) en src c pb st).
Proof.
  pose proof above_frame as F.
  induction k as [|k IH]; [lia|]. intros fuel src c p n pb st Hi Hk Ht Hp Hs Hn. destruct HC as [Hpb HC'].
  assert (Hne : streq n partial_block = false) by (destruct (streq n partial_block) eqn:E; [apply streq_eq in E; subst; contradiction | reflexivity]).
  unfold render_partial. assert (Hg : get_partial_name (tie fuel) en src c st = ROk n st).
  { unfold get_partial_name. rewrite Ht, Hp. cbn [need]. rewrite bind_ret, Hne, Hs. reflexivity. }
  rewrite (bind_ok _ _ _ _ _ Hg), bind_get. cbv beta.
  destruct (existsb (site_eq (SPartial n)) (r_stack st)) eqn:E; [intros []|].
  pose proof (above_tie en fuel) as (An & Ac & As). pose proof (above_emit en) as Ae.
  rewrite bind_upd. change (up_stack (SPartial n :: r_stack st) st) with (push_site (SPartial n) st).
  set (st1 := push_site (SPartial n) st).
  assert (H1 : idle C (r_stack st1) < k) by (pose proof (idle_push C n (r_stack st) Hn E); cbn; lia).
  assert (Hk1 : forall s, above st1 s -> idle C (r_stack s) < k) by (intros s [xs Hx]; rewrite Hx; pose proof (idle_app C xs (r_stack st1)); lia).
  assert (I1 : pinv st1) by exact Hi. clearbody st1.
  apply fails_bind; [|exact I1|].
  { destruct pb; [apply spec_upd; intros; apply (fr_partials _ _ _ F); assumption | apply (spec_ret _ _ _ F)]. }
  intros [] s2 I2 A2. rewrite bind_get. cbv beta.
  assert (Hnone : assoc n (r_partials s2) = None).
  { destruct (assoc n (r_partials s2)) eqn:Ea; [|reflexivity]. apply TermFacts.assoc_in in Ea. apply I2 in Ea. subst n. contradiction. }
  destruct (HC' n Hn) as (t & x & m & Ht' & Hx & (c' & p' & -> & Hc' & Hp' & Hm & Hsm) & HmC).
  rewrite Hnone, Ht'. rewrite bind_assoc, bind_upd, bind_ret.
  set (s3 := up_names _ s2). assert (I3 : pinv s3) by exact I2. assert (A3 : above st1 s3) by (eapply above_trans; [exact A2 | apply above_eq; reflexivity]). clearbody s3.
  apply fails_bind; [eapply spec_hash; eauto | exact I3|]. intros h s4 I4 A4.
  apply fails_bind; [|exact I4|].
  { destruct (c_args c); [apply (spec_ret _ _ _ F)|]. apply (spec_bind _ _ _ F); [eapply spec_arguments; eauto|]. intros a. destruct (fst a); apply (spec_ret _ _ _ F). }
  intros sc s5 I5 A5. rewrite bind_upd, bind_get. cbv beta.
  set (s6 := up_scopes _ s5). assert (I6 : pinv s6) by exact I5.
  assert (A6 : above st1 s6) by (eapply above_trans; [exact A3|]; eapply above_trans; [exact A4|]; eapply above_trans; [exact A5 | apply above_eq; reflexivity]). clearbody s6.
  apply fails_first. apply (fails_iter _ _ (NStmt c') _ Hx); [intros; apply An | exact I6|].
  intros tr _ _ s7 I7 A7. destruct fuel as [|fuel]; [intros []|]. cbn [tie k_node]. fold tie. unfold node_.
  pose proof (above_tie en fuel) as (An' & Ac' & As').
  apply fails_bind; [apply spec_upd; intros; apply (fr_trim _ _ _ F); assumption | exact I7|]. intros [] s8 I8 A8.
  apply fails_bind; [apply spec_need, F | exact I8|]. intros hh s9 I9 A9.
  apply fails_bind; [apply spec_upd; intros; apply (fr_hint _ _ _ F); assumption | exact I9|]. intros [] s10 I10 A10.
  apply fails_bind; [|exact I10|].
  { apply spec_upd. intros s Hs'. destruct (r_end s) as [e|]; [|split; [exact Hs' | apply above_eq; reflexivity]].
    destruct (th_after e); (split; [exact Hs' | apply above_eq; reflexivity]). }
  intros [] s11 I11 A11. unfold node_body. apply fails_first.
  destruct fuel as [|fuel]; [intros []|]. cbn [tie k_stmt]. fold tie. unfold stmt_. rewrite Hc'. apply fails_first.
  apply (IH fuel _ c' p' m None s11 I11); auto. apply Hk1. eauto 10 using above_trans.
Qed.
End Cyc.
