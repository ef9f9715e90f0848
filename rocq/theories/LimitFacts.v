(** * LimitFacts: the call stack never exceeds the limits. *)
From Coq Require Import Lia String.
From Verif Require Import Str Json Ast ErrInfo Parser Render Helpers StrFacts Spec_Render RelFacts FuelFacts.
Open Scope nat_scope. Open Scope list_scope.

Lemma site_eq_refl x : site_eq x x = true.
Proof. destruct x; apply streq_refl. Qed.
Lemma site_eq_true x y : site_eq x y = true -> x = y.
Proof. destruct x, y; simpl; try discriminate; intros H; apply streq_eq in H; congruence. Qed.
Lemma count_zero (x : site) (l : list site) : existsb (site_eq x) l = false -> count_site x l = 0.
Proof.
  induction l as [|y l IH]; simpl; [reflexivity|]. intros H. apply Bool.orb_false_elim in H. destruct H as [H1 H2].
  destruct (site_eq y x) eqn:E; [apply site_eq_true in E; subst; rewrite site_eq_refl in H1; discriminate | apply IH, H2].
Qed.
Definition limit (x : site) : nat := match x with SPartial _ => 1 | _ => stack_max end.
Definition lim (l : list site) : Prop := forall x, count_site x l <= limit x.
Lemma count_absent (x : site) (l : list site) : ~ In x l -> count_site x l = 0.
Proof.
  induction l as [|y l IH]; simpl; [reflexivity|]. intros H. destruct (site_eq y x) eqn:E; [apply site_eq_true in E; subst; tauto | apply IH; tauto].
Qed.
Lemma count_in (x : site) (l : list site) : In x l \/ ~ In x l.
Proof.
  induction l as [|y l IH]; simpl; [tauto|]. destruct (site_eq y x) eqn:E; [left; left; apply site_eq_true, E|]. destruct IH as [H|H]; [tauto|].
  right. intros [->|X]; [rewrite site_eq_refl in E; discriminate | tauto].
Qed.
Lemma lim_within l : lim l <-> within_limits l = true.
Proof.
  unfold within_limits. rewrite forallb_forall. split.
  - intros H x _. apply Nat.leb_le. exact (H x).
  - intros H x. destruct (count_in x l) as [Hi|Hi]; [exact (proj1 (Nat.leb_le _ _) (H x Hi)) | rewrite count_absent by exact Hi; unfold limit; destruct x; unfold stack_max; lia].
Qed.
Definition SL (l : list site) : Prop := within_limits l = true.
Lemma SL_push x l : SL l -> match x with SPartial _ => existsb (site_eq x) l = false | _ => count_site x l < stack_max end -> SL (x :: l).
Proof.
  unfold SL. rewrite <- !lim_within. intros H Hc y. simpl. destruct (site_eq x y) eqn:E; [|apply H]. apply site_eq_true in E. subst y.
  destruct x; simpl in *; [apply count_zero in Hc; lia | lia | lia].
Qed.
Lemma SL_pop l : SL l -> SL (tl l).
Proof.
  unfold SL. rewrite <- !lim_within. intros H x. destruct l as [|y l]; [apply H|]. specialize (H x). simpl in *. destruct (site_eq y x); lia.
Qed.
Notation R := (mrel (@eq (list str)) Qt SL).
Lemma RS_lim s1 s2 : RS eq Qt SL s1 s2 <-> s1 = s2 /\ SL (r_stack s1).
Proof.
  split; [intros (o & -> & <- & _ & H); rewrite up_out_same; auto|]. intros [<- H]. exists (r_out s1). rewrite up_out_same.
  split; [reflexivity|]. split; [reflexivity|]. split; [apply locals_t | exact H].
Qed.
Section Lim.
Variables K1 K2 : knot.
Hypothesis Hn : forall en src n tr, R eq (k_node K1 en src n tr) (k_node K2 en src n tr).
Hypothesis Hc : forall en src c, R eq (k_call K1 en src c) (k_call K2 en src c).
Hypothesis Hs : forall en src c, R eq (k_stmt K1 en src c) (k_stmt K2 en src c).
Lemma lim_render en t : R eq (render_ K1 en t) (render_ K2 en t).
Proof. eapply rel_render; auto using env_rel_refl. Qed.
Lemma lim_template en t : R eq (template_ K1 en t) (template_ K2 en t).
Proof. eapply rel_template; auto using env_rel_refl. Qed.
Lemma lim_buffer en t : R eq (buffer K1 en t) (buffer K2 en t).
Proof.
  intros s1 s2 E. apply RS_lim in E. destruct E as [<- E]. unfold buffer.
  pose proof (lim_template (en_with_string en) t (up_scopes (r_scopes s1) (r_new (r_stack s1))) (up_scopes (r_scopes s1) (r_new (r_stack s1))) ltac:(apply RS_lim; auto)) as X.
  destruct (template_ K1 _ _ _) as [a s|e s|p|], (template_ K2 _ _ _) as [a' s'|e' s'|p'|]; simpl in X |- *; try contradiction; auto.
  - destruct X as [_ X]. apply RS_lim in X. destruct X as [<- _]. split; [reflexivity | apply RS_lim; auto].
  - destruct X as [<- X]. split; [reflexivity | apply RS_lim; auto].
Qed.
Lemma lim_once en f c d : R eq (once_ K1 en f c d) (once_ K2 en f c d).
Proof.
  intros s1 s2 E. apply RS_lim in E. destruct E as [<- E]. unfold once_.
  destruct (compile _ _ c) as [n fs|e fs|p|]; simpl; auto; [|split; [reflexivity | apply RS_lim; auto]].
  pose proof (lim_render (en_once en f d) (mkTpl c n) (r_new (r_stack s1)) (r_new (r_stack s1)) ltac:(apply RS_lim; auto)) as X.
  destruct (render_ K1 _ _ _) as [a s|e s|p|], (render_ K2 _ _ _) as [a' s'|e' s'|p'|]; simpl in X |- *; try contradiction; auto.
  - destruct X as [_ X]. apply RS_lim in X. destruct X as [<- _]. split; [reflexivity | apply RS_lim; auto].
  - destruct X as [<- X]. split; [reflexivity | apply RS_lim; auto].
Qed.
Lemma lim_hash en src c : R (fun a b => fst a = fst b /\ snd a = snd b) (hash K1 en src c) (hash K2 en src c).
Proof.
  intros s1 s2 E. unfold hash.
  assert (X : R eq (hash_go K1 en src (pl_order (en_plat en) src c) []) (hash_go K2 en src (pl_order (en_plat en) src c) [])) by (eapply rel_hash_go; auto using env_rel_refl).
  specialize (X s1 s2 E). destruct (hash_go K1 en _ _ _ s1), (hash_go K2 en _ _ _ s2); simpl in X |- *; auto. destruct X as [-> X]. auto.
Qed.
Lemma lim_node en src n tr : R eq (node_ K1 en src n tr) (node_ K2 en src n tr).
Proof. eapply (rel_node eq eq RM_eq_app Qt blind_t SL SL_push SL_pop); auto using env_rel_refl, lim_buffer, lim_once, lim_hash. Qed.
Lemma lim_call en src c : R eq (call_ K1 en src c) (call_ K2 en src c).
Proof. eapply (rel_call eq eq RM_eq_app Qt blind_t SL SL_push SL_pop); auto using env_rel_refl, lim_buffer, lim_once, lim_hash. Qed.
Lemma lim_stmt en src c : R eq (stmt_ K1 en src c) (stmt_ K2 en src c).
Proof. eapply (rel_stmt eq eq RM_eq_app Qt blind_t SL SL_push SL_pop); auto using env_rel_refl, lim_buffer, lim_once, lim_hash. Qed.
End Lim.
Lemma mon_r {A} (m1 m2 : M A) : R eq m1 m2 -> R eq m1 (monitored m2).
Proof. intros H s1 s2 E. pose proof E as E'. apply RS_lim in E'. destruct E' as [<- E']. unfold monitored. unfold SL in E'. rewrite E'. apply H, E. Qed.
Lemma mon_l {A} (m1 m2 : M A) : R eq m1 m2 -> R eq (monitored m1) m2.
Proof. intros H s1 s2 E. pose proof E as E'. apply RS_lim in E'. destruct E' as [<- E']. unfold monitored. unfold SL in E'. rewrite E'. apply H, E. Qed.
Definition lim_knots (K1 K2 : knot) : Prop :=
  (forall en src n tr, R eq (k_node K1 en src n tr) (k_node K2 en src n tr))
  /\ (forall en src c, R eq (k_call K1 en src c) (k_call K2 en src c))
  /\ (forall en src c, R eq (k_stmt K1 en src c) (k_stmt K2 en src c)).
Lemma lim_tie n : lim_knots (tie n) (tie_monitored n) /\ lim_knots (tie_monitored n) (tie n).
Proof.
  induction n as [|n [(A & B & C) (A' & B' & C')]]; [repeat split; intros; intros s1 s2 _; exact I|].
  cbn [tie tie_monitored]. unfold lim_knots. cbn [k_node k_call k_stmt].
  repeat split; intros; first [apply mon_r | apply mon_l]; auto using lim_node, lim_call, lim_stmt.
Qed.
Lemma lim_same {A} (m1 m2 : M A) st : R eq m1 m2 -> R eq m2 m1 -> SL (r_stack st) -> m1 st = m2 st.
Proof.
  intros H1 H2 E. assert (X : RS eq Qt SL st st) by (apply RS_lim; auto). specialize (H1 _ _ X). specialize (H2 _ _ X).
  destruct (m1 st), (m2 st); simpl in *; try contradiction; try congruence.
  - destruct H1 as [-> H1]. apply RS_lim in H1. destruct H1 as [-> _]. reflexivity.
  - destruct H1 as [-> H1]. apply RS_lim in H1. destruct H1 as [-> _]. reflexivity.
Qed.
Lemma render_monitored n en t st : within_limits (r_stack st) = true -> render_ (tie_monitored n) en t st = render_ (tie n) en t st.
Proof. destruct (lim_tie n) as [(A & B & C) (A' & B' & C')]. intros H. apply lim_same; [| |exact H]; apply lim_render; assumption. Qed.
