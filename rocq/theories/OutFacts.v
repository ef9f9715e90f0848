(** * OutFacts: what is rendered does not depend on what is already in the output. *)
From Coq Require Import Lia String.
From Verif Require Import Str Json Ast ErrInfo Parser Render Helpers StrFacts RelFacts FuelFacts UnaryFacts Spec_Render StateFacts.
Open Scope nat_scope. Open Scope list_scope.

Section Shift.
Variables p1 p2 : list str.
Definition shifted (a b : list str) : Prop := exists x, a = p1 ++ x /\ b = p2 ++ x.
Variables en1 en2 : env.
Hypothesis Hpl : en_plat en2 = en_plat en1.
Hypothesis Hrg : en_reg en2 = en_reg en1.
Hypothesis Hnm : en_name en2 = en_name en1.
Hypothesis Hrt : en_root en2 = en_root en1.
Hypothesis Hw : forall xs s, en_write en2 (p2 ++ xs) s = en_write en1 (p1 ++ xs) s.
Let Q := Qt.
Lemma shift_env : env_rel shifted Qt en1 en2.
Proof.
  constructor; try congruence; try apply locals_t; try (intros; apply good_t).
  intros o o' s (x & -> & ->). split; [apply Hw|]. exists (x ++ [s]). rewrite !app_assoc. auto.
Qed.
Lemma RS_shift s1 s2 : RS shifted Qt It s1 s2 <-> exists x, r_out s1 = p1 ++ x /\ s2 = up_out (p2 ++ x) s1.
Proof.
  split.
  - intros (o & -> & (x & Hx & ->) & _). exists x. auto.
  - intros (x & Hx & ->). exists (p2 ++ x). split; [reflexivity|]. split; [exists x; auto | split; [apply locals_t | exact I]].
Qed.
Lemma shift_buffer K t : mrel shifted Qt It eq (buffer K en1 t) (buffer K en2 t).
Proof.
  intros s1 s2 Hs. pose proof Hs as (o & -> & _). unfold buffer. replace (en_with_string en2) with (en_with_string en1) by (unfold en_with_string; congruence).
  cbn [up_out r_scopes r_stack]. destruct (template_ _ _ _ _); simpl; auto.
Qed.
Lemma shift_once K f c d : mrel shifted Qt It eq (once_ K en1 f c d) (once_ K en2 f c d).
Proof.
  intros s1 s2 Hs. pose proof Hs as (o & -> & _). unfold once_. rewrite Hpl. replace (en_once en2 f d) with (en_once en1 f d) by (unfold en_once; congruence).
  cbn [up_out r_scopes r_stack]. destruct (compile _ _ _); simpl; auto. destruct (render_ _ _ _ _); simpl; auto.
Qed.
Definition knot_shift (K : knot) : Prop :=
  (forall src n tr, mrel shifted Qt It eq (k_node K en1 src n tr) (k_node K en2 src n tr))
  /\ (forall src c, mrel shifted Qt It eq (k_call K en1 src c) (k_call K en2 src c))
  /\ (forall src c, mrel shifted Qt It eq (k_stmt K en1 src c) (k_stmt K en2 src c)).
Lemma shift_hash K : knot_shift K -> forall src c, mrel shifted Qt It (fun a b => fst a = fst b /\ snd a = snd b) (hash K en1 src c) (hash K en2 src c).
Proof.
  intros (A & B & C) src c s1 s2 Hs. unfold hash. rewrite Hpl.
  assert (X : mrel shifted Qt It eq (hash_go K en1 src (pl_order (en_plat en1) src c) []) (hash_go K en2 src (pl_order (en_plat en1) src c) [])).
  { eapply rel_hash_go; eauto using shift_env. }
  specialize (X s1 s2 Hs). destruct (hash_go K en1 _ _ _ s1), (hash_go K en2 _ _ _ s2); simpl in X |- *; auto. destruct X as [-> X]. auto.
Qed.
Lemma shift_tie n : knot_shift (tie n).
Proof.
  induction n as [|n IH]; [repeat split; intros; intros s1 s2 _; exact I|]. pose proof (shift_hash _ IH) as Hh. destruct IH as (A & B & C).
  unfold knot_shift. cbn [tie k_node k_call k_stmt]. repeat split; intros.
  - eapply (rel_node shifted eq RM_eq_app Qt blind_t It It_push It_pop); eauto using shift_env, shift_buffer, shift_once.
  - eapply (rel_call shifted eq RM_eq_app Qt blind_t It It_push It_pop); eauto using shift_env, shift_buffer, shift_once.
  - eapply (rel_stmt shifted eq RM_eq_app Qt blind_t It It_push It_pop); eauto using shift_env, shift_buffer, shift_once.
Qed.
Lemma shift_render n t : mrel shifted Qt It eq (render_ (tie n) en1 t) (render_ (tie n) en2 t).
Proof. destruct (shift_tie n) as (A & B & C). eapply rel_render; eauto using shift_env. Qed.
Lemma shift_template n t : mrel shifted Qt It eq (template_ (tie n) en1 t) (template_ (tie n) en2 t).
Proof. destruct (shift_tie n) as (A & B & C). eapply rel_template; eauto using shift_env. Qed.
End Shift.

(** [r2] is [r1] with [p1] replaced by [p2] at the front of the output *)
Definition moved {A} (p1 p2 : list str) (r1 r2 : rres A) : Prop :=
  match r1 with
  | ROk a s => exists xs, r_out s = p1 ++ xs /\ r2 = ROk a (up_out (p2 ++ xs) s)
  | RErr e s => exists xs, r_out s = p1 ++ xs /\ r2 = RErr e (up_out (p2 ++ xs) s)
  | RPanic p => r2 = RPanic p
  | RFuel => r2 = RFuel
  end.
Lemma both_ways {A} p1 p2 (m1 m2 : M A) st : mrel (shifted p1 p2) Qt It eq m1 m2 -> mrel (shifted p2 p1) Qt It eq m2 m1 ->
  r_out st = p1 -> moved p1 p2 (m1 st) (m2 (up_out p2 st)).
Proof.
  intros H1 H2 E. assert (R1 : RS (shifted p1 p2) Qt It st (up_out p2 st)) by (apply RS_shift; exists []; rewrite !app_nil_r; auto).
  assert (R2 : RS (shifted p2 p1) Qt It (up_out p2 st) st) by (apply RS_shift; exists []; rewrite !app_nil_r; split; [reflexivity|]; destruct st; cbn in *; subst; reflexivity).
  specialize (H1 _ _ R1). specialize (H2 _ _ R2).
  destruct (m1 st) as [a s|e s|p|], (m2 (up_out p2 st)) as [a' s'|e' s'|p'|]; simpl in *; try contradiction; try congruence.
  - destruct H1 as [-> H1]. apply RS_shift in H1. destruct H1 as (x & Hx & ->). exists x. auto.
  - destruct H1 as [-> H1]. apply RS_shift in H1. destruct H1 as (x & Hx & ->). exists x. auto.
Qed.
