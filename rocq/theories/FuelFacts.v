(** * FuelFacts: more fuel never changes a result. *)
From Coq Require Import Lia String.
From Verif Require Import Str Json Ast ErrInfo Parser Render Helpers RelFacts.
Open Scope nat_scope. Open Scope list_scope.

Definition Qt (h : helper) : Prop := True.
(** [m1] and [m2] give the same result unless [m1] runs out of fuel *)
Definition le_res {A} (r1 r2 : rres A) : Prop := r1 = RFuel \/ r1 = r2.
Definition mle {A} (m1 m2 : M A) : Prop := forall st, le_res (m1 st) (m2 st).
Lemma good_t h : good Qt h.
Proof. split; [exact I|]. intros c t. apply hall_trivial. intros; exact I. Qed.
Lemma locals_t l : locals_good Qt l.
Proof. apply Forall_forall. intros x _. apply good_t. Qed.
Lemma up_out_same s : up_out (r_out s) s = s.
Proof. destruct s; reflexivity. Qed.
Lemma RS_eq s1 s2 : RS eq Qt It s1 s2 <-> s1 = s2.
Proof.
  split; [intros (o & -> & <- & _); rewrite up_out_same; reflexivity|]. intros <-. exists (r_out s1). rewrite up_out_same.
  repeat split. apply locals_t.
Qed.
Lemma rel_le {A} (r1 r2 : rres A) : rel eq Qt It eq r1 r2 <-> le_res r1 r2.
Proof.
  unfold le_res. destruct r1 as [a s|e s|p|], r2 as [a' s'|e' s'|p'|]; simpl; rewrite ?RS_eq;
    (split; [intros H; try contradiction; try (left; reflexivity); right; intuition congruence
            | intros [H|H]; try discriminate H; try exact I; injection H; intros; subst; auto]).
Qed.
Lemma mrel_le {A} (m1 m2 : M A) : mrel eq Qt It eq m1 m2 <-> mle m1 m2.
Proof.
  unfold mrel, mle. split.
  - intros H st. apply rel_le, H, RS_eq. reflexivity.
  - intros H s1 s2 Hs. apply RS_eq in Hs. subst s2. apply rel_le, H.
Qed.
Lemma env_rel_refl en : env_rel eq Qt en en.
Proof.
  constructor; try reflexivity; try apply locals_t; try (intros; apply good_t). intros o o' s <-. split; reflexivity.
Qed.
Lemma ctx_rel_eq c c' : ctx_rel eq c c' -> c = c'.
Proof. destruct c, c'. unfold ctx_rel. simpl. intros H. intuition congruence. Qed.
Lemma blind_t h : Qt h -> forall c c' t, ctx_rel eq c c' -> h c t = h c' t.
Proof. intros _ c c' t H. apply ctx_rel_eq in H. subst. reflexivity. Qed.
Lemma RM_eq_app (a b b' : list missing_value) : b = b' -> a ++ b = a ++ b'.
Proof. intros ->. reflexivity. Qed.

Definition knot_le (K1 K2 : knot) : Prop := forall en,
  (forall src n tr, mle (k_node K1 en src n tr) (k_node K2 en src n tr))
  /\ (forall src c, mle (k_call K1 en src c) (k_call K2 en src c))
  /\ (forall src c, mle (k_stmt K1 en src c) (k_stmt K2 en src c)).
Section Mono.
Variables K1 K2 : knot.
Hypothesis H : knot_le K1 K2.
Let Hn en src n tr : mrel eq Qt It eq (k_node K1 en src n tr) (k_node K2 en src n tr).
Proof. apply mrel_le, H. Qed.
Let Hc en src c : mrel eq Qt It eq (k_call K1 en src c) (k_call K2 en src c).
Proof. apply mrel_le, H. Qed.
Let Hs en src c : mrel eq Qt It eq (k_stmt K1 en src c) (k_stmt K2 en src c).
Proof. apply mrel_le, H. Qed.
Lemma template_le en t : mle (template_ K1 en t) (template_ K2 en t).
Proof. apply mrel_le. eapply rel_template; intros; auto using env_rel_refl. Qed.
Lemma render_le en t : mle (render_ K1 en t) (render_ K2 en t).
Proof. apply mrel_le. eapply rel_render; intros; auto using env_rel_refl. Qed.
Lemma buffer_le en t : mle (buffer K1 en t) (buffer K2 en t).
Proof.
  intros st. unfold buffer, le_res. destruct (template_le (en_with_string en) t (up_scopes (r_scopes st) (r_new (r_stack st)))) as [->| ->]; [left; reflexivity|].
  right. reflexivity.
Qed.
Lemma once_le en f c d : mle (once_ K1 en f c d) (once_ K2 en f c d).
Proof.
  intros st. unfold once_, le_res. destruct (compile _ _ c) as [n fs|e fs|p|]; try (right; reflexivity).
  destruct (render_le (en_once en f d) (mkTpl c n) (r_new (r_stack st))) as [->| ->]; [left; reflexivity | right; reflexivity].
Qed.
Let Hb en t : mrel eq Qt It eq (buffer K1 en t) (buffer K2 en t).
Proof. apply mrel_le, buffer_le. Qed.
Let Ho en f c d : mrel eq Qt It eq (once_ K1 en f c d) (once_ K2 en f c d).
Proof. apply mrel_le, once_le. Qed.
Lemma hash_le en src c : mle (hash K1 en src c) (hash K2 en src c).
Proof. apply mrel_le. unfold hash. eapply rel_hash_go; intros; auto using env_rel_refl. Qed.
Let Hh en src c : mrel eq Qt It (fun a b => fst a = fst b /\ snd a = snd b) (hash K1 en src c) (hash K2 en src c).
Proof.
  intros s1 s2 E. apply RS_eq in E. subst s2. destruct (hash_le en src c s1) as [->| ->]; [exact I|].
  destruct (hash K2 en src c s1); simpl; rewrite ?RS_eq; auto.
Qed.
Lemma arguments_le en src i ps : mle (arguments K1 en src i ps) (arguments K2 en src i ps).
Proof. apply mrel_le. eapply rel_arguments; intros; auto using env_rel_refl. Qed.
Lemma run_le en p : mle (run K1 en p) (run K2 en p).
Proof. apply mrel_le. eapply rel_run; intros; auto using env_rel_refl, hall_trivial. apply hall_trivial. intros; exact I. Qed.
Lemma inverse_le en t : mle (inverse K1 en t) (inverse K2 en t).
Proof. apply mrel_le. eapply rel_inverse; intros; auto using env_rel_refl. Qed.
Lemma node_le en src n tr : mle (node_ K1 en src n tr) (node_ K2 en src n tr).
Proof. apply mrel_le. eapply (rel_node eq eq RM_eq_app Qt blind_t It It_push It_pop); intros; auto using env_rel_refl. Qed.
Lemma call_le en src c : mle (call_ K1 en src c) (call_ K2 en src c).
Proof. apply mrel_le. eapply (rel_call eq eq RM_eq_app Qt blind_t It It_push It_pop); intros; auto using env_rel_refl. Qed.
Lemma stmt_le en src c : mle (stmt_ K1 en src c) (stmt_ K2 en src c).
Proof. apply mrel_le. eapply (rel_stmt eq eq RM_eq_app Qt blind_t It It_push It_pop); intros; auto using env_rel_refl. Qed.
End Mono.

Lemma tie_step n : knot_le (tie n) (tie (S n)).
Proof.
  induction n as [|n IH].
  - intros en. repeat split; intros; left; reflexivity.
  - intros en. cbn [tie k_node k_call k_stmt]. fold (tie (S n)). repeat split; intros.
    + apply node_le, IH.
    + apply call_le, IH.
    + apply stmt_le, IH.
Qed.
Lemma mle_refl {A} (m : M A) : mle m m.
Proof. intros st. right. reflexivity. Qed.
Lemma mle_trans {A} (m1 m2 m3 : M A) : mle m1 m2 -> mle m2 m3 -> mle m1 m3.
Proof. intros H1 H2 st. destruct (H1 st) as [E|E]; [left; exact E|]. destruct (H2 st) as [E'|E']; [left | right]; congruence. Qed.
Lemma tie_mono n m : n <= m -> knot_le (tie n) (tie m).
Proof.
  induction 1 as [|m Hm IH]; [intros en; repeat split; intros; apply mle_refl|].
  intros en. destruct (IH en) as (A & B & C). destruct (tie_step m en) as (A' & B' & C').
  repeat split; intros; eapply mle_trans; eauto.
Qed.
Lemma render_mono n m en t st : n <= m -> render_ (tie n) en t st <> RFuel -> render_ (tie m) en t st = render_ (tie n) en t st.
Proof.
  intros Hnm Hf. destruct (render_le (tie n) (tie m) (tie_mono n m Hnm) en t st) as [E|E]; [contradiction | symmetry; exact E].
Qed.
