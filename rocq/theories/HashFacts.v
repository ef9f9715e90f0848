(** * HashFacts: rendering does not depend on the iteration order of hash parameters. *)
From Coq Require Import Lia String Permutation.
From Verif Require Import Str Json Ast ErrInfo Parser Render Helpers StrFacts Spec_Render RelFacts FuelFacts.
Open Scope nat_scope. Open Scope list_scope.

(** ** the order of strings *)
Lemma strcmp_refl a : strcmp a a = Eq.
Proof. induction a as [|x a IH]; [reflexivity|]. simpl. rewrite N.compare_refl. exact IH. Qed.
Lemma strcmp_eq a b : strcmp a b = Eq -> a = b.
Proof.
  revert b. induction a as [|x a IH]; intros [|y b]; simpl; try discriminate; [reflexivity|]. destruct (N.compare_spec x y); try discriminate. intros H'. subst. f_equal. apply IH, H'.
Qed.
Lemma strcmp_anti a b : strcmp b a = CompOpp (strcmp a b).
Proof.
  revert b. induction a as [|x a IH]; intros [|y b]; simpl; try reflexivity. rewrite (N.compare_antisym x y). destruct (x ?= y)%N; simpl; [apply IH | reflexivity..].
Qed.
Lemma strcmp_trans a b c : strcmp a b = Lt -> strcmp b c = Lt -> strcmp a c = Lt.
Proof.
  revert b c. induction a as [|x a IH]; intros [|y b] [|z c]; simpl; try discriminate; try reflexivity.
  destruct (N.compare_spec x y), (N.compare_spec y z); try discriminate; intros H1 H2; subst.
  - rewrite N.compare_refl. exact (IH b c H1 H2).
  - apply N.compare_lt_iff in H0. rewrite H0. reflexivity.
  - apply N.compare_lt_iff in H. rewrite H. reflexivity.
  - assert (X : (x < z)%N) by lia. apply N.compare_lt_iff in X. rewrite X. reflexivity.
Qed.
Lemma insert_comm {A} k1 k2 (v1 v2 : A) l : k1 <> k2 -> obj_insert k1 v1 (obj_insert k2 v2 l) = obj_insert k2 v2 (obj_insert k1 v1 l).
Proof.
  intros Hk. assert (Hne : strcmp k1 k2 <> Eq) by (intros E; apply strcmp_eq in E; contradiction).
  pose proof (strcmp_anti k1 k2) as Ha. induction l as [|[k v] l IH]; simpl.
  - rewrite Ha. destruct (strcmp k1 k2); simpl; congruence.
  - pose proof (strcmp_anti k1 k) as A1. pose proof (strcmp_anti k2 k) as A2.
    destruct (strcmp k1 k) eqn:E1, (strcmp k2 k) eqn:E2; simpl; rewrite ?E1, ?E2, ?Ha; try reflexivity.
    + apply strcmp_eq in E1, E2. congruence.
    + apply strcmp_eq in E1. subst k. rewrite E2 in Ha. destruct (strcmp k1 k2) eqn:E; simpl in *; try discriminate. rewrite ?strcmp_refl, ?E1, ?E2. reflexivity.
    + apply strcmp_eq in E1. subst k. rewrite E2 in Ha. destruct (strcmp k1 k2) eqn:E; simpl in *; try discriminate. rewrite ?strcmp_refl, ?E1, ?E2. reflexivity.
    + apply strcmp_eq in E2. subst k. rewrite ?E1, ?strcmp_refl. simpl. rewrite ?E1, ?E2. reflexivity.
    + destruct (strcmp k1 k2) eqn:E; simpl; rewrite ?E1, ?E2; try congruence; reflexivity.
    + assert (X : strcmp k1 k2 = Lt). { apply strcmp_trans with k; [exact E1|]. rewrite A2. reflexivity. } rewrite X. simpl. rewrite ?E1, ?E2. reflexivity.
    + apply strcmp_eq in E2. subst k. rewrite ?E1, ?strcmp_refl. simpl. rewrite ?E1, ?E2. reflexivity.
    + assert (X : strcmp k2 k1 = Lt). { apply strcmp_trans with k; [exact E2|]. rewrite A1. reflexivity. } rewrite Ha in X. destruct (strcmp k1 k2); try discriminate. simpl. rewrite ?E1, ?E2. reflexivity.
    + rewrite IH. reflexivity.
Qed.

(** ** evaluating quiet parameters *)
Definition quiet_value (root : json) (ss : list scope) (src : str) (p : param) : option (json * option str) :=
  match p with
  | VJson v _ _ => Some (v, None)
  | VPath p =>
      match Render.lookup src p root ss with
      | None => None
      | Some (Some v) => Some (v, None)
      | Some None => match path_str src p with Some s => Some (JNull, Some s) | None => None end
      end
  | VSub _ => None
  end.
Lemma quiet_eval K en src p st : quiet p ->
  eval_param K en src p st = match quiet_value (en_root en) (r_scopes st) src p with Some r => ROk r st | None => RPanic PanSlice end.
Proof.
  destruct p as [p|v sp ln|cl]; simpl; [|reflexivity|contradiction]. intros _. unfold bind, mlookup, get, bind, Render.need.
  destruct (Render.lookup src p (en_root en) (r_scopes st)) as [[v|]|]; try reflexivity. simpl. destruct (path_str src p); reflexivity.
Qed.
Fixpoint quiet_all (root : json) (ss : list scope) (src : str) (ps : list (str * param)) : option (list (str * (json * option str))) :=
  match ps with
  | [] => Some []
  | (k, p) :: ps =>
      match quiet_value root ss src p, quiet_all root ss src ps with
      | Some r, Some l => Some ((k, r) :: l)
      | _, _ => None
      end
  end.
Definition q_hash (l : list (str * (json * option str))) (acc : list (str * json)) : list (str * json) :=
  fold_left (fun a kr => obj_insert (fst kr) (fst (snd kr)) a) l acc.
Definition q_miss (l : list (str * (json * option str))) : list missing_value :=
  flat_map (fun kr => match snd (snd kr) with Some s => [MissParam (fst kr) (JStr s)] | None => [] end) l.
Lemma quiet_hash K en src ps : Forall (fun kp => quiet (snd kp)) ps -> forall acc st,
  hash_go K en src ps acc st =
  match quiet_all (en_root en) (r_scopes st) src ps with Some l => ROk (q_hash l acc, q_miss l) st | None => RPanic PanSlice end.
Proof.
  intros H. induction H as [|[k p] ps Hp H IH]; intros acc st; [reflexivity|]. cbn [hash_go quiet_all]. unfold bind at 1. rewrite (quiet_eval K en src p st Hp).
  destruct (quiet_value (en_root en) (r_scopes st) src p) as [[v m]|] eqn:Ev; [|reflexivity]. cbn match. unfold bind at 1. rewrite IH.
  destruct (quiet_all (en_root en) (r_scopes st) src ps) as [l|]; [|reflexivity]. unfold ret. cbn [fst snd]. unfold q_miss. cbn [flat_map fst snd]. destruct m; reflexivity.
Qed.
Lemma quiet_perm root ss src o1 o2 : Permutation o1 o2 ->
  match quiet_all root ss src o1, quiet_all root ss src o2 with
  | Some a, Some b => Permutation a b /\ map fst a = map fst o1
  | None, None => True
  | _, _ => False
  end.
Proof.
  assert (F : forall o l, quiet_all root ss src o = Some l -> map fst l = map fst o).
  { induction o as [|[k p] o IH]; simpl; intros l; [intros H; injection H as <-; reflexivity|]. destruct (quiet_value root ss src p); [|discriminate].
    destruct (quiet_all root ss src o) as [l'|]; [|discriminate]. intros H; injection H as <-. simpl. rewrite (IH l' eq_refl). reflexivity. }
  intros H. enough (X : match quiet_all root ss src o1, quiet_all root ss src o2 with Some a, Some b => Permutation a b | None, None => True | _, _ => False end).
  { destruct (quiet_all root ss src o1) as [a|] eqn:E, (quiet_all root ss src o2); auto. }
  induction H as [|[k p] l l' H IH|[k p] [k' p'] l|l l' l'' H1 IH1 H2 IH2]; simpl.
  - constructor.
  - destruct (quiet_value root ss src p); [|exact I]. destruct (quiet_all root ss src l), (quiet_all root ss src l'); auto.
  - destruct (quiet_value root ss src p), (quiet_value root ss src p'); auto; destruct (quiet_all root ss src l); auto. apply perm_swap.
  - destruct (quiet_all root ss src l), (quiet_all root ss src l'), (quiet_all root ss src l''); try contradiction; auto. eapply perm_trans; eassumption.
Qed.
Lemma hash_perm l l' : Permutation l l' -> NoDup (map fst l) -> forall acc, q_hash l acc = q_hash l' acc.
Proof.
  intros H. induction H as [|x l l' H IH|x y l|l l' l'' H1 IH1 H2 IH2]; intros Hd acc.
  - reflexivity.
  - unfold q_hash. cbn [fold_left]. apply IH. inversion Hd; assumption.
  - unfold q_hash. cbn [fold_left]. f_equal. apply insert_comm. inversion Hd as [|? ? Hn Hd']; subst. intros E. apply Hn. left. exact E.
  - rewrite (IH1 Hd). apply IH2. apply (Permutation_NoDup (Permutation_map fst H1)), Hd.
Qed.
Lemma miss_perm l l' : Permutation l l' -> Permutation (q_miss l) (q_miss l').
Proof. intros H. apply Permutation_flat_map, H. Qed.

(** ** the whole render *)
Definition Qo : helper -> Prop := order_blind.
Lemma perm_app (a b b' : list missing_value) : Permutation b b' -> Permutation (a ++ b) (a ++ b').
Proof. apply Permutation_app_head. Qed.
Lemma blind_o h : Qo h -> forall c c' t, ctx_rel (@Permutation missing_value) c c' -> h c t = h c' t.
Proof. intros H c c' t (H1 & H2 & H3 & H4 & H5 & H6 & H7 & H8). apply H; assumption. Qed.
Record same_but_order (en1 en2 : env) : Prop := mkSbo {
  sbo_plat : hash_order_only (en_plat en1) (en_plat en2);
  sbo_reg : en_reg en2 = en_reg en1; sbo_name : en_name en2 = en_name en1; sbo_root : en_root en2 = en_root en1;
  sbo_write : forall o s, en_write en2 o s = en_write en1 o s }.
Section Order.
Variable rg : registry.
Hypothesis Hg : locals_good Qo (rg_helpers rg).
Hypothesis Hl : forall h, rg_link rg = Some h -> good Qo h.
Hypothesis Hm : forall h, rg_missing rg = Some h -> good Qo h.
Hypothesis Hb : forall h, rg_block_missing rg = Some h -> good Qo h.
Notation R := (mrel (@eq (list str)) Qo It).
Lemma order_env en1 en2 : en_reg en1 = rg -> same_but_order en1 en2 -> env_rel eq Qo en1 en2.
Proof.
  intros E [[P1 P2 P3 P4 P5] S2 S3 S4 S5]. constructor; auto; try (rewrite E; assumption).
  intros o o' s <-. split; [apply S5 | reflexivity].
Qed.
Definition knot_order (K : knot) : Prop := forall en1 en2, en_reg en1 = rg -> same_but_order en1 en2 ->
  (forall src n tr, R eq (k_node K en1 src n tr) (k_node K en2 src n tr))
  /\ (forall src c, R eq (k_call K en1 src c) (k_call K en2 src c))
  /\ (forall src c, R eq (k_stmt K en1 src c) (k_stmt K en2 src c)).
Lemma order_out s1 s2 : RS eq Qo It s1 s2 -> s2 = s1.
Proof. intros (o & -> & <- & _). apply up_out_same. Qed.
Lemma RS_new ss st : RS eq Qo It (up_scopes ss (r_new st)) (up_scopes ss (r_new st)).
Proof. exists []. repeat split. constructor. Qed.
Section Knot.
Variable K : knot.
Hypothesis HK : knot_order K.
Variables en1 en2 : env.
Hypothesis Er : en_reg en1 = rg.
Hypothesis S12 : same_but_order en1 en2.
Lemma order_buffer t : R eq (buffer K en1 t) (buffer K en2 t).
Proof.
  intros s1 s2 Hs. pose proof (order_out _ _ Hs) as ->. unfold buffer.
  assert (S' : same_but_order (en_with_string en1) (en_with_string en2)) by (destruct S12; constructor; auto).
  destruct (HK (en_with_string en1) (en_with_string en2) Er S') as (A & B & C).
  assert (X : R eq (template_ K (en_with_string en1) t) (template_ K (en_with_string en2) t)) by (eapply rel_template; eauto using order_env).
  specialize (X _ _ (RS_new (r_scopes s1) (r_stack s1))).
  destruct (template_ K (en_with_string en1) t _) as [a s|e s|p|], (template_ K (en_with_string en2) t _) as [a' s'|e' s'|p'|]; simpl in X |- *; try contradiction; auto.
  - destruct X as [_ X]. apply order_out in X. subst. auto.
  - destruct X as [<- X]. auto.
Qed.
Lemma order_once f c d : R eq (once_ K en1 f c d) (once_ K en2 f c d).
Proof.
  intros s1 s2 Hs. pose proof (order_out _ _ Hs) as ->. unfold once_. pose proof (sbo_plat _ _ S12) as [P1 P2 P3 P4 P5]. rewrite P1, P3.
  destruct (compile _ _ c) as [n fs|e fs|p|]; simpl; auto.
  assert (S' : same_but_order (en_once en1 f d) (en_once en2 f d)) by (destruct S12; constructor; auto).
  destruct (HK (en_once en1 f d) (en_once en2 f d) Er S') as (A & B & C).
  assert (X : R eq (render_ K (en_once en1 f d) (mkTpl c n)) (render_ K (en_once en2 f d) (mkTpl c n))) by (eapply rel_render; eauto using order_env).
  specialize (X _ _ (RS_new [] (r_stack s1))). change (up_scopes [] (r_new (r_stack s1))) with (r_new (r_stack s1)) in X.
  destruct (render_ K (en_once en1 f d) _ _) as [a s|e s|p|], (render_ K (en_once en2 f d) _ _) as [a' s'|e' s'|p'|]; simpl in X |- *; try contradiction; auto.
  - destruct X as [_ X]. apply order_out in X. subst. auto.
  - destruct X as [<- X]. auto.
Qed.
Lemma order_hash src c : R (fun a b => fst a = fst b /\ Permutation (snd a) (snd b)) (hash K en1 src c) (hash K en2 src c).
Proof.
  intros s1 s2 Hs. unfold hash. pose proof (sbo_plat _ _ S12) as [P1 P2 P3 P4 P5]. destruct (P5 src c) as [E|(Hp & Hd & Hq)].
  - rewrite <- E. destruct (HK en1 en2 Er S12) as (A & B & C).
    assert (X : R eq (hash_go K en1 src (pl_order (en_plat en1) src c) []) (hash_go K en2 src (pl_order (en_plat en1) src c) [])) by (eapply rel_hash_go; eauto using order_env).
    specialize (X s1 s2 Hs). destruct (hash_go K en1 _ _ _ s1), (hash_go K en2 _ _ _ s2); simpl in X |- *; auto. destruct X as [-> X]. auto.
  - pose proof (order_out _ _ Hs) as ->. rewrite (quiet_hash K en1) by exact Hq.
    rewrite (quiet_hash K en2) by (eapply Permutation_Forall; eassumption). rewrite (sbo_root _ _ S12).
    pose proof (quiet_perm (en_root en1) (r_scopes s1) src _ _ Hp) as Y.
    destruct (quiet_all _ _ _ (pl_order (en_plat en1) src c)) as [l|], (quiet_all _ _ _ (pl_order (en_plat en2) src c)) as [l'|]; try contradiction; simpl; auto.
    destruct Y as [Y1 Y2]. split; [|exact Hs]. split; [apply hash_perm; [exact Y1 | rewrite Y2; exact Hd] | apply miss_perm, Y1].
Qed.
End Knot.
Lemma order_tie n : knot_order (tie n).
Proof.
  induction n as [|n IH]; intros en1 en2 Er S12; [repeat split; intros; intros s1 s2 _; exact I|].
  pose proof (order_hash _ IH en1 en2 Er S12). pose proof (order_buffer _ IH en1 en2 Er S12). pose proof (order_once _ IH en1 en2 Er S12).
  destruct (IH en1 en2 Er S12) as (A & B & C). cbn [tie k_node k_call k_stmt]. repeat split; intros.
  - eapply (rel_node eq (@Permutation _) perm_app Qo blind_o It It_push It_pop); eauto using order_env.
  - eapply (rel_call eq (@Permutation _) perm_app Qo blind_o It It_push It_pop); eauto using order_env.
  - eapply (rel_stmt eq (@Permutation _) perm_app Qo blind_o It It_push It_pop); eauto using order_env.
Qed.
Lemma order_render n en1 en2 t : en_reg en1 = rg -> same_but_order en1 en2 -> R eq (render_ (tie n) en1 t) (render_ (tie n) en2 t).
Proof. intros Er S12. destruct (order_tie n en1 en2 Er S12) as (A & B & C). eapply rel_render; eauto using order_env. Qed.
End Order.
