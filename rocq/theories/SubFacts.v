(** * SubFacts: two registries that differ only in what the first refuses with an error.  Used for C68 and C69. *)
From Coq Require Import Lia String.
From Verif Require Import Str Json Ast ErrInfo Parser Messages Render Helpers Registry StrFacts RelFacts TermFacts Spec_Laws.
Open Scope nat_scope. Open Scope list_scope.

Section Sub.
Variable bad : rerr -> Prop.
Variable badp : panic -> Prop.
Variable asks : str -> Prop.
Definition locals_fw (l : list (str * helper)) : Prop := forall n h, In (n, h) l -> forwarding bad asks h.
Definition fine {A} (r : rres A) : Prop := match r with ROk _ s | RErr _ s => locals_fw (r_local s) | _ => True end.
Definition refused {A} (r : rres A) : Prop := match r with RErr e _ => bad e | RPanic p => badp p | _ => False end.
Definition sub {A} (r1 r2 : rres A) : Prop := refused r1 \/ (r1 = r2 /\ fine r1).
Definition msub {A} (m1 m2 : M A) : Prop := forall s, locals_fw (r_local s) -> sub (m1 s) (m2 s).
(** no difference at all *)
Definition msame {A} (m1 m2 : M A) : Prop := forall s, locals_fw (r_local s) -> m1 s = m2 s /\ fine (m1 s).
Lemma same_sub {A} (m1 m2 : M A) : msame m1 m2 -> msub m1 m2.
Proof. intros H s Hs. right. apply H, Hs. Qed.

Lemma sub_bind {A B} (m1 m2 : M A) (f1 f2 : A -> M B) : msub m1 m2 -> (forall a, msub (f1 a) (f2 a)) -> msub (bind m1 f1) (bind m2 f2).
Proof.
  intros H Hf s Hs. unfold bind. destruct (H s Hs) as [R|(E & F)].
  - left. destruct (m1 s); try contradiction; exact R.
  - rewrite <- E. destruct (m1 s) as [a s'|e s'|p|]; [apply Hf; exact F|right; split; [reflexivity|exact F]|right; split; [reflexivity|exact I]|right; split; [reflexivity|exact I]].
Qed.
Lemma sub_catch {A B} (m1 m2 : M A) (f1 f2 : hres A -> M B) : msub m1 m2 -> (forall a, msub (f1 a) (f2 a)) ->
  (forall e s, bad e -> refused (f1 (HErr e) s)) -> msub (mcatch m1 f1) (mcatch m2 f2).
Proof.
  intros H Hf Hb s Hs. unfold mcatch. destruct (H s Hs) as [R|(E & F)].
  - left. destruct (m1 s); try contradiction; [apply Hb|]; exact R.
  - rewrite <- E. destruct (m1 s) as [a s'|e s'|p|]; [apply Hf; exact F|apply Hf; exact F|right; split; [reflexivity|exact I]|right; split; [reflexivity|exact I]].
Qed.
Lemma sub_catch_same {A B} (m1 m2 : M A) (f1 f2 : hres A -> M B) : msame m1 m2 -> (forall a, msub (f1 a) (f2 a)) -> msub (mcatch m1 f1) (mcatch m2 f2).
Proof.
  intros H Hf s Hs. unfold mcatch. destruct (H s Hs) as (E & F).
  rewrite <- E. destruct (m1 s) as [a s'|e s'|p|]; [apply Hf; exact F|apply Hf; exact F|right; split; [reflexivity|exact I]|right; split; [reflexivity|exact I]].
Qed.
Lemma same_bind {A B} (m1 m2 : M A) (f1 f2 : A -> M B) : msame m1 m2 -> (forall a, msame (f1 a) (f2 a)) -> msame (bind m1 f1) (bind m2 f2).
Proof.
  intros H Hf s Hs. unfold bind. destruct (H s Hs) as (E & F).
  rewrite <- E. destruct (m1 s) as [a s'|e s'|p|]; [apply Hf; exact F|split; [reflexivity|exact F]|split; [reflexivity|exact I]|split; [reflexivity|exact I]].
Qed.
Lemma same_ret {A} (a : A) : msame (ret a) (ret a).
Proof. intros s Hs. split; [reflexivity|exact Hs]. Qed.
Lemma same_fail {A} e : msame (@fail A e) (fail e).
Proof. intros s Hs. split; [reflexivity|exact Hs]. Qed.
Lemma same_panic {A} p : msame (@mpanic A p) (mpanic p).
Proof. intros s Hs. split; [reflexivity|exact I]. Qed.
Lemma same_need {A} (o : option A) : msame (need o) (need o).
Proof. destruct o; [apply same_ret|apply same_panic]. Qed.
Lemma same_upd f : (forall s, r_local (f s) = r_local s) -> msame (upd f) (upd f).
Proof. intros H s Hs. split; [reflexivity|]. cbn. rewrite H. exact Hs. Qed.
Lemma sub_ret {A} (a : A) : msub (ret a) (ret a).
Proof. apply same_sub, same_ret. Qed.
Lemma sub_fail {A} e : msub (@fail A e) (fail e).
Proof. apply same_sub, same_fail. Qed.
Lemma sub_bad {A} e (m : M A) : bad e -> msub (fail e) m.
Proof. intros H s Hs. left. exact H. Qed.
Lemma sub_panic {A} p : msub (@mpanic A p) (mpanic p).
Proof. apply same_sub, same_panic. Qed.
Lemma sub_need {A} (o : option A) : msub (need o) (need o).
Proof. apply same_sub, same_need. Qed.
Lemma sub_get {B} (f1 f2 : rst -> M B) : (forall s, locals_fw (r_local s) -> msub (f1 s) (f2 s)) -> msub (bind get f1) (bind get f2).
Proof. intros H s Hs. apply H; exact Hs. Qed.
Lemma sub_upd f : (forall s, r_local (f s) = r_local s) -> msub (upd f) (upd f).
Proof. intros H. apply same_sub, same_upd, H. Qed.
Ltac supd := apply sub_upd; intros []; reflexivity.

Variable K : knot.
Variables en1 en2 : env.
Notation reg1 := (en_reg en1). Notation reg2 := (en_reg en2).
Record differ : Prop := mkDiffer {
  df_plat : en_plat en2 = en_plat en1; df_name : en_name en2 = en_name en1; df_root : en_root en2 = en_root en1; df_write : en_write en2 = en_write en1;
  df_helpers : rg_helpers reg2 = rg_helpers reg1; df_link : rg_link reg2 = rg_link reg1; df_block : rg_block_missing reg2 = rg_block_missing reg1;
  df_escape : rg_escape reg2 = rg_escape reg1;
  df_templates : forall n, (asks n -> assoc n (rg_templates reg2) = assoc n (rg_templates reg1))
    /\ (assoc n (rg_templates reg2) = assoc n (rg_templates reg1) \/ (assoc n (rg_templates reg1) = None /\ bad (EPartialNotFound n)));
  (** the same settings for missing variables, or the first registry refuses them *)
  df_missing : (rg_missing reg2 = rg_missing reg1 /\ rg_strict reg2 = rg_strict reg1)
    \/ (rg_missing reg1 = None /\ rg_strict reg1 = true /\ (forall e, missing_error e -> bad e) /\ badp PanSlice);
  df_forward : forwarding_registry bad asks reg1 }.
Hypothesis D : differ.
Hypothesis Hnode : forall src n tr, msub (k_node K en1 src n tr) (k_node K en2 src n tr).
Hypothesis Hcall : forall src c, msub (k_call K en1 src c) (k_call K en2 src c).
Hypothesis Hstmt : forall src c, msub (k_stmt K en1 src c) (k_stmt K en2 src c).
Hypothesis Hbuffer : forall t, msub (buffer K en1 t) (buffer K en2 t).

Lemma same_emit s : msame (emit en1 s) (emit en2 s).
Proof. intros st Hs. unfold emit. rewrite (df_write D). split; [reflexivity|]. destruct (en_write en1 (r_out st) s); exact Hs. Qed.
Lemma same_write s e : msame (write_str en1 s e) (write_str en2 s e).
Proof.
  unfold write_str. apply same_bind; [intros st Hs; split; [reflexivity|exact Hs]|]. intros st. rewrite (df_escape D).
  destruct (if ts_end (r_trim st) then _ else _); [apply same_ret|apply same_emit].
Qed.
Lemma same_lookup src p : msame (mlookup en1 src p) (mlookup en2 src p).
Proof. unfold mlookup. rewrite (df_root D). apply same_bind; [intros st Hs; split; [reflexivity|exact Hs]|]. intros st. apply same_need. Qed.
Lemma sub_lookup src p : msub (mlookup en1 src p) (mlookup en2 src p).
Proof. apply same_sub, same_lookup. Qed.
Lemma same_evaluate s : msame (evaluate en1 s) (evaluate en2 s).
Proof.
  unfold evaluate. rewrite (df_plat D). destruct (path_from_str _ s) as [[p|] fs|e fs|p|]; [apply same_lookup|apply same_ret|apply same_fail|apply same_panic|].
  intros st Hs. split; [reflexivity|exact I].
Qed.
Lemma sub_iter src (f1 f2 : node -> trim_state -> bool -> bool -> M unit) ns :
  (forall n tr a b, msub (f1 n tr a b) (f2 n tr a b)) -> forall prev hint, msub (iter_nodes src f1 prev hint ns) (iter_nodes src f2 prev hint ns).
Proof.
  intros Hf. induction ns as [|n ns IH]; intros prev hint; [apply sub_ret|]. cbn [iter_nodes].
  destruct (match prev with Some b => (b, hint) | None => _ end) as [start hint']. apply sub_bind.
  { destruct ns; [apply sub_ret|]. apply sub_bind; [apply sub_need|intros; apply sub_ret]. }
  intros stop. apply sub_bind; [apply sub_need|]. intros hn. apply sub_bind; [apply Hf|]. intros _. apply IH.
Qed.
Lemma sub_render t : msub (render_ K en1 t) (render_ K en2 t).
Proof. unfold render_. apply sub_iter. intros. apply Hnode. Qed.
Lemma sub_template t : msub (template_ K en1 t) (template_ K en2 t).
Proof.
  unfold template_. cbv zeta. apply sub_get. intros s1 Hs. apply sub_bind.
  - apply sub_iter. intros n tr a b. apply sub_bind.
    { destruct a; [|apply sub_ret]. apply sub_bind; [apply sub_need|intros; apply sub_ret]. }
    intros tr1. apply sub_bind; [|intros; apply Hnode]. destruct b; [|apply sub_ret]. destruct (tp_node t); try apply sub_ret.
    apply sub_bind; [apply sub_need|intros; apply sub_ret].
  - intros _. apply sub_bind.
    + destruct (children (tp_node t)); [apply sub_ret|]. destruct (tp_node t); try apply sub_ret. apply sub_bind; [apply sub_need|intros; apply sub_ret].
    + intros h'. supd.
Qed.
Lemma sub_inverse_go src cs : forall alt, msub (inverse_go K en1 src alt cs) (inverse_go K en2 src alt cs).
Proof.
  induction cs as [|n cs IH]; intros alt; [apply sub_ret|]. destruct n; cbn [inverse_go]; try apply IH.
  destruct (call_is_empty (b_call b)); [apply IH|]. apply sub_bind; [apply Hcall|]. intros [v|]; [|apply IH]. destruct (is_truthy v); [apply sub_ret|apply IH].
Qed.
Lemma sub_inverse t : msub (inverse K en1 t) (inverse K en2 t).
Proof. unfold inverse. destruct (tp_node t); try apply sub_ret. apply sub_bind; [apply sub_inverse_go|intros; apply sub_ret]. Qed.
Lemma in_set name h (l : list (str * helper)) : forall n f, In (n, f) (assoc_set name h l) -> In (n, f) l \/ f = h.
Proof.
  induction l as [|[k v] l IH]; cbn; intros n f H; [destruct H as [H|[]]; injection H as <- <-; auto|].
  destruct (streq name k); cbn in H; destruct H as [H|H]; auto; [injection H as <- <-; auto|]. destruct (IH n f H); auto.
Qed.
Lemma in_del name (l : list (str * helper)) : forall x, In x (assoc_del name l) -> In x l.
Proof. induction l as [|[k v] l IH]; cbn; intros x H; [exact H|]. destruct (streq name k); [right; apply IH, H|]. destruct H as [H|H]; auto. Qed.
Lemma sub_run p : forwards bad asks p -> msub (run K en1 p) (run K en2 p).
Proof.
  induction p; intros Hq; cbn [run forwards] in *.
  - apply sub_ret.
  - apply sub_fail.
  - apply sub_panic.
  - destruct Hq as (H1 & H2). apply sub_catch; [apply sub_template|auto|]. intros e s He. rewrite (H2 e He). exact He.
  - destruct Hq as (H1 & H2). apply sub_catch; [apply sub_render|auto|]. intros e s He. rewrite (H2 e He). exact He.
  - destruct Hq as (H1 & H2). apply sub_catch; [apply Hbuffer|auto|]. intros e s He. rewrite (H2 e He). exact He.
  - contradiction.
  - destruct Hq as (H1 & H2). apply sub_catch; [apply sub_inverse|auto|]. intros e s He. rewrite (H2 e He). exact He.
  - apply sub_catch_same; [apply same_write|auto].
  - apply sub_catch_same; [apply same_emit|auto].
  - apply sub_bind; [supd|auto].
  - apply sub_get. intros s1 Hs. destruct (r_scopes s1) as [|s ss]; [auto|]. apply sub_bind; [supd|auto].
  - apply sub_bind; [|auto]. apply sub_upd. intros s. destruct s as [? ? [|x ss] ? ? ? ? ? ?]; reflexivity.
  - apply sub_catch_same; [apply same_evaluate|auto].
  - destruct Hq as (H1 & H2). apply sub_bind; [|auto]. intros s Hs. right. split; [reflexivity|]. cbn. intros n f Hn. destruct (in_set _ _ _ n f Hn) as [X| ->]; [exact (Hs n f X)|exact H1].
  - apply sub_bind; [|auto]. intros s Hs. right. split; [reflexivity|]. cbn. intros n f Hn. exact (Hs n f (in_del _ _ _ Hn)).
  - destruct Hq as (H1 & H2). rewrite (proj1 (df_templates D _) H1). auto.
  - rewrite (df_root D). auto.
  - apply sub_get. intros s Hs. unfold current_name. rewrite (df_name D). auto.
  - rewrite (df_escape D). auto.
  - auto.
Qed.
Lemma sub_eval_param src p : msub (eval_param K en1 src p) (eval_param K en2 src p).
Proof.
  unfold eval_param. destruct p.
  - apply sub_bind; [apply sub_lookup|]. intros [v|]; [apply sub_ret|]. apply sub_bind; [apply sub_need|intros; apply sub_ret].
  - apply sub_ret.
  - apply sub_bind; [apply Hstmt|]. intros [v|]; [apply sub_ret|]. apply sub_bind; [apply sub_need|intros; apply sub_ret].
Qed.
Lemma sub_arguments src ps : forall i, msub (arguments K en1 src i ps) (arguments K en2 src i ps).
Proof.
  induction ps as [|p ps IH]; intros i; [apply sub_ret|]. cbn [arguments]. apply sub_bind; [apply sub_eval_param|]. intros r. apply sub_bind; [apply IH|intros; apply sub_ret].
Qed.
Lemma sub_hash_go src ps : forall acc, msub (hash_go K en1 src ps acc) (hash_go K en2 src ps acc).
Proof.
  induction ps as [|[k p] ps IH]; intros acc; [apply sub_ret|]. cbn [hash_go]. apply sub_bind; [apply sub_eval_param|]. intros r. apply sub_bind; [apply IH|intros; apply sub_ret].
Qed.
Lemma sub_hash src c : msub (hash K en1 src c) (hash K en2 src c).
Proof. unfold hash. rewrite (df_plat D). apply sub_hash_go. Qed.
Lemma sub_invoke src name tg c content text prop : match tg with ByRef h => forwarding bad asks h | ByName _ => True end ->
  msub (invoke K en1 src name tg c content text prop) (invoke K en2 src name tg c content text prop).
Proof.
  intros Htg. unfold invoke. cbv zeta. set (x := match content with Some _ => SBlock name | None => SHelper name end).
  apply sub_get. intros s1 Hs. destruct (stack_max <=? count_site x (r_stack s1)); [apply sub_fail|].
  apply sub_bind; [supd|]. intros _. apply sub_bind; [apply sub_arguments|]. intros a. apply sub_bind; [apply sub_hash|]. intros h.
  apply sub_get. intros s2 Hs2. rewrite (df_helpers D). apply sub_bind; [|intros v; apply sub_bind; [supd|intros; apply sub_ret]].
  destruct tg as [n|f]; [|apply sub_run, Htg].
  destruct (assoc n (r_local s2)) as [f|] eqn:E1; [apply sub_run; exact (Hs2 n f (assoc_in _ _ _ E1) _ _)|].
  destruct (assoc n (rg_helpers reg1)) as [f|] eqn:E2; [|apply sub_ret]. apply sub_run. exact (proj1 (df_forward D) n f (assoc_in _ _ _ E2) _ _).
Qed.
Lemma sub_has {B} name (a1 a2 b1 b2 : M B) : msub a1 a2 -> msub b1 b2 ->
  msub (let* st := get in if has_helper en1 name st then a1 else b1) (let* st := get in if has_helper en2 name st then a2 else b2).
Proof. intros Ha Hb. apply sub_get. intros s Hs. unfold has_helper. rewrite (df_helpers D). match goal with |- msub (if ?b then _ else _) _ => destruct b end; assumption. Qed.
Lemma missing_var n t : missing_error (EVariableNotFound n t).
Proof. left. eauto. Qed.
Lemma sub_need_bad {A B} (o : option A) (f : A -> M B) (m : M B) : badp PanSlice -> (forall a, msub (f a) m) -> msub (bind (need o) f) m.
Proof. intros Hp Hf s Hs. destruct o as [a|]; [apply Hf, Hs|left; exact Hp]. Qed.
Lemma sub_resolve src p : msub (resolve en1 src p) (resolve en2 src p).
Proof.
  unfold resolve. apply sub_bind; [apply sub_lookup|]. intros [v|]; [apply sub_ret|]. rewrite (df_name D).
  destruct (df_missing D) as [(_ & E)|(_ & E & Hb & Hp)]; rewrite E.
  - destruct (rg_strict reg1); [|apply sub_ret]. apply sub_bind; [apply sub_need|intros; apply sub_fail].
  - apply sub_need_bad; [exact Hp|]. intros x. apply sub_bad, Hb, missing_var.
Qed.
Lemma sub_call src c : msub (call_ K en1 src c) (call_ K en2 src c).
Proof.
  unfold call_. destruct (c_target c); [|apply Hcall]. destruct (pa_explicit p); [apply sub_lookup|].
  destruct (path_is_simple p); [|apply sub_resolve]. apply sub_bind; [apply sub_need|]. intros name.
  apply sub_has; [apply sub_invoke; exact I|]. apply sub_bind; [apply sub_lookup|]. intros [v|]; [apply sub_ret|].
  rewrite (df_name D). destruct (df_missing D) as [(E1 & E2)|(E1 & E2 & Hb & Hp)]; rewrite E1, E2; [|apply sub_bad, Hb, missing_var].
  destruct (rg_missing reg1) as [h|] eqn:E; [apply sub_invoke; exact (proj1 (proj2 (proj2 (df_forward D))) h E)|].
  destruct (rg_strict reg1); [apply sub_fail|apply sub_ret].
Qed.
Lemma sub_partial_name src c : msub (get_partial_name K en1 src c) (get_partial_name K en2 src c).
Proof.
  unfold get_partial_name. destruct (c_target c).
  - apply sub_bind; [apply sub_need|]. intros s. destruct (streq s partial_block); [apply sub_ret|]. destruct (path_is_simple p); [apply sub_ret|apply sub_fail].
  - apply sub_bind; [apply Hstmt|]. intros v. rewrite (df_plat D). apply sub_ret.
Qed.
Lemma sub_partial src c pb : msub (render_partial K en1 src c pb) (render_partial K en2 src c pb).
Proof.
  unfold render_partial. apply sub_bind; [apply sub_partial_name|]. intros name. apply sub_get. intros s1 Hs.
  destruct (existsb (site_eq (SPartial name)) (r_stack s1)); [apply sub_fail|]. apply sub_bind; [supd|]. intros _. apply sub_bind.
  { destruct pb; [supd|apply sub_ret]. }
  intros _. apply sub_get. intros s2 Hs2. apply sub_bind.
  { destruct (assoc name (r_partials s2)); [apply sub_ret|].
    destruct (proj2 (df_templates D name)) as [-> |(E & Hb)]; [|rewrite E; apply sub_bad, Hb].
    destruct (assoc name (rg_templates reg1)); [|apply sub_fail]. apply sub_bind; [supd|intros; apply sub_ret]. }
  intros t. apply sub_bind; [apply sub_hash|]. intros h. apply sub_bind.
  { destruct (c_args c); [apply sub_ret|]. apply sub_bind; [apply sub_arguments|]. intros a. destruct (fst a); apply sub_ret. }
  intros sc. apply sub_bind; [supd|]. intros _. apply sub_get. intros s3 Hs3. apply sub_bind; [apply sub_iter; intros; apply Hnode|]. intros _.
  apply sub_bind; [supd|]. intros _. apply sub_bind; [supd|]. intros _. supd.
Qed.
Lemma sub_stmt src c : msub (stmt_ K en1 src c) (stmt_ K en2 src c).
Proof. unfold stmt_. destruct (c_partial c); [|apply sub_call]. apply sub_bind; [apply sub_partial|intros; apply sub_ret]. Qed.
Lemma sub_write_u s e : msub (write_str en1 s e ;; ret tt) (write_str en2 s e ;; ret tt).
Proof. apply sub_bind; [apply same_sub, same_write|intros; apply sub_ret]. Qed.
Lemma sub_block_missing t c text raw : msub (block_missing K en1 t c text raw) (block_missing K en2 t c text raw).
Proof.
  unfold block_missing. cbv zeta. destruct raw; [destruct text; [apply sub_write_u|apply sub_ret]|].
  destruct (c_target c); [|apply sub_ret]. apply sub_bind; [apply sub_lookup|]. rewrite (df_block D). intros [v|].
  - destruct (rg_block_missing reg1) as [h|] eqn:E; [|apply sub_template]. apply sub_bind; [apply sub_need|]. intros name.
    apply sub_bind; [apply sub_invoke; exact (proj2 (proj2 (proj2 (df_forward D))) h E)|intros; apply sub_ret].
  - destruct (df_missing D) as [(E1 & E2)|(E1 & E2 & Hb & Hp)]; rewrite E1, E2; [|apply sub_need_bad; [exact Hp|]; intros x; apply sub_bad, Hb; right; eauto].
    destruct (rg_missing reg1) as [h|] eqn:E.
    + apply sub_bind; [apply sub_invoke; exact (proj1 (proj2 (proj2 (df_forward D))) h E)|intros; apply sub_ret].
    + destruct (rg_strict reg1); [|apply sub_ret]. apply sub_bind; [apply sub_need|intros; apply sub_fail].
Qed.
Lemma sub_raw_text src b : msub (raw_text src b) (raw_text src b).
Proof.
  unfold raw_text. apply sub_bind; [destruct (b_nodes b); [apply sub_ret|apply sub_need]|]. intros s. apply sub_bind; [apply sub_need|]. intros hint.
  apply sub_bind; [apply sub_need|]. intros h. cbv zeta. apply sub_bind; [supd|intros; apply sub_ret].
Qed.
Lemma sub_block src b : msub (block_ K en1 src b) (block_ K en2 src b).
Proof.
  unfold block_. cbv zeta. destruct (c_partial (b_call b)); [apply sub_partial|]. destruct (c_target (b_call b)); [|apply sub_fail].
  destruct (path_is_simple p).
  - apply sub_bind.
    { destruct (b_raw b); [|apply sub_ret]. apply sub_bind; [apply sub_raw_text|intros; apply sub_ret]. }
    intros text. apply sub_bind; [apply sub_need|]. intros name. apply sub_has; [|apply sub_block_missing].
    apply sub_bind; [apply sub_invoke; exact I|intros; apply sub_ret].
  - apply sub_bind; [apply sub_need|intros; apply sub_fail].
Qed.
Lemma sub_link_ src h l : forwarding bad asks h -> msub (link_ K en1 src h l) (link_ K en2 src h l).
Proof.
  intros Hh. unfold link_. do 3 (apply sub_bind; [apply sub_need|]; intros ?). apply sub_bind; [apply sub_invoke, Hh|intros; apply sub_ret].
Qed.
Lemma sub_node_body src n : msub (node_body K en1 src n) (node_body K en2 src n).
Proof.
  unfold node_body. destruct n; try apply sub_ret.
  - apply sub_bind; [apply sub_need|]. intros s. apply sub_write_u.
  - apply sub_bind; [apply Hstmt|]. intros [v|]; [|apply sub_ret]. apply sub_bind; [apply sub_need|]. intros e. rewrite (df_plat D). apply sub_write_u.
  - apply sub_block.
  - apply sub_bind; [apply sub_need|]. intros s. apply sub_bind; [apply sub_need|]. intros s'. apply sub_write_u.
  - apply sub_bind; [apply sub_need|]. intros e. destruct e; [apply sub_bind; [apply sub_need|]; intros s; apply sub_write_u|].
    rewrite (df_plat D), (df_link D).
    assert (W : msub (let* s := need (link_str src l) in write_str en1 s false;; ret tt) (let* s := need (link_str src l) in write_str en2 s false;; ret tt))
      by (apply sub_bind; [apply sub_need|]; intros s; apply sub_write_u).
    destruct (pl_links (en_plat en1)); [|exact W]. destruct (rg_link reg1) as [h|] eqn:E; [apply sub_link_; exact (proj1 (proj2 (df_forward D)) h E)|exact W].
Qed.
Lemma sub_node src n tr : msub (node_ K en1 src n tr) (node_ K en2 src n tr).
Proof.
  unfold node_. apply sub_bind; [supd|]. intros _. apply sub_bind; [apply sub_need|]. intros h. apply sub_bind; [supd|]. intros _.
  apply sub_bind; [|intros; apply sub_node_body]. apply sub_upd. intros [? ? ? ? ? [[x y]|] ? ? ?]; [destruct y|]; reflexivity.
Qed.
End Sub.

Lemma buffer_sub bad badp asks K en1 en2 : (forall t, msub bad badp asks (template_ K (en_with_string en1) t) (template_ K (en_with_string en2) t)) ->
  forall t, msub bad badp asks (buffer K en1 t) (buffer K en2 t).
Proof.
  intros H t s Hs. unfold buffer. destruct (H t (up_scopes (r_scopes s) (r_new (r_stack s)))) as [R|(E & F)]; [intros n h []|left|rewrite <- E; right; split; [reflexivity|]].
  - destruct (template_ K (en_with_string en1) t _); try contradiction; exact R.
  - destruct (template_ K (en_with_string en1) t _); try exact I; exact Hs.
Qed.
Lemma differ_string bad badp asks en1 en2 : differ bad badp asks en1 en2 -> differ bad badp asks (en_with_string en1) (en_with_string en2).
Proof. intros []. constructor; try assumption. reflexivity. Qed.
Theorem sub_tie bad badp asks fuel : forall en1 en2, differ bad badp asks en1 en2 ->
  (forall src n tr, msub bad badp asks (k_node (tie fuel) en1 src n tr) (k_node (tie fuel) en2 src n tr))
  /\ (forall src c, msub bad badp asks (k_call (tie fuel) en1 src c) (k_call (tie fuel) en2 src c))
  /\ (forall src c, msub bad badp asks (k_stmt (tie fuel) en1 src c) (k_stmt (tie fuel) en2 src c)).
Proof.
  induction fuel as [|fuel IH]; intros en1 en2 D; [repeat split; intros; intros s Hs; right; split; [reflexivity|exact I| reflexivity|exact I|reflexivity|exact I]|].
  destruct (IH en1 en2 D) as (H1 & H2 & H3).
  assert (Hb : forall t, msub bad badp asks (buffer (tie fuel) en1 t) (buffer (tie fuel) en2 t)).
  { apply buffer_sub. intros t. apply sub_template. apply (IH _ _ (differ_string _ _ _ _ _ D)). }
  cbn [tie k_node k_call k_stmt]. split; [|split]; intros.
  - eapply sub_node; eassumption.
  - eapply sub_call; eassumption.
  - eapply sub_stmt; eassumption.
Qed.
(** the two renders of a template *)
Lemma sub_template_render bad badp asks fuel pl r1 r2 name data wr t : differ bad badp asks (mkEnv pl r1 name data wr) (mkEnv pl r2 name data wr) ->
  (exists e, bad e /\ fst (template_render fuel pl r1 name t data wr []) = AErr (XRender e)) \/ (exists p, badp p /\ fst (template_render fuel pl r1 name t data wr []) = APanic p)
  \/ template_render fuel pl r2 name t data wr [] = template_render fuel pl r1 name t data wr [].
Proof.
  intros D. unfold template_render, render_template_go. destruct (sub_tie bad badp asks fuel _ _ D) as (H1 & _).
  destruct (sub_render bad badp asks _ _ _ H1 t (r_new [])) as [R|(E & F)]; [intros n h []| |right; right; rewrite E; reflexivity].
  destruct (render_ (tie fuel) (mkEnv pl r1 name data wr) t (r_new [])) as [a s|e s|p|]; try contradiction; cbn in R.
  - left. exists e. split; [exact R|reflexivity].
  - right. left. exists p. split; [exact R|reflexivity].
Qed.
