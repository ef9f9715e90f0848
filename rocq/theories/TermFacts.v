(** * TermFacts: every render comes to an end. *)
From Coq Require Import Lia String Permutation.
From Verif Require Import Str Json Ast ErrInfo Parser Render Helpers StrFacts RelFacts FuelFacts UnaryFacts Spec_Render StateFacts DocProps EvalFacts.
Open Scope nat_scope. Open Scope list_scope.

(** ** capacity of a call stack *)
Section Cap.
Variables U P : list str.
Definition room (l : list site) (n : str) : nat := (stack_max - count_site (SHelper n) l) + (stack_max - count_site (SBlock n) l).
Definition proom (l : list site) (n : str) : nat := 1 - count_site (SPartial n) l.
Definition cap (l : list site) : nat := list_sum (map (room l) U) + list_sum (map (proom l) P).
Lemma count_app s a b : count_site s (a ++ b) = count_site s a + count_site s b.
Proof. induction a as [|x a IH]; simpl; [reflexivity|]. destruct (site_eq x s); rewrite IH; reflexivity. Qed.
Lemma site_eq_refl s : site_eq s s = true.
Proof. destruct s; apply streq_refl. Qed.
Lemma site_eq_sym a b : site_eq a b = site_eq b a.
Proof. destruct a, b; simpl; try reflexivity; destruct (streq n n0) eqn:E; symmetry; [apply streq_eq in E; subst; apply streq_refl | | apply streq_eq in E; subst; apply streq_refl | | apply streq_eq in E; subst; apply streq_refl |]; apply streq_neq; apply streq_neq in E; congruence. Qed.
Lemma sum_le {A} (f g : A -> nat) l : (forall x, f x <= g x) -> list_sum (map f l) <= list_sum (map g l).
Proof. intros H. induction l as [|x l IH]; simpl; [lia|]. specialize (H x). lia. Qed.
Lemma sum_lt {A} (f g : A -> nat) l x : (forall x, f x <= g x) -> In x l -> f x < g x -> list_sum (map f l) < list_sum (map g l).
Proof.
  intros H Hin Hx. induction l as [|y l IH]; simpl; [contradiction|]. pose proof (H y). pose proof (sum_le f g l H). destruct Hin as [->|Hin]; [lia|]. specialize (IH Hin). lia.
Qed.
Lemma room_app xs l n : room (xs ++ l) n <= room l n.
Proof. unfold room. rewrite !count_app. lia. Qed.
Lemma proom_app xs l n : proom (xs ++ l) n <= proom l n.
Proof. unfold proom. rewrite !count_app. lia. Qed.
Lemma cap_app xs l : cap (xs ++ l) <= cap l.
Proof. unfold cap. pose proof (sum_le _ _ U (room_app xs l)). pose proof (sum_le _ _ P (proom_app xs l)). lia. Qed.
Definition known (x : site) : Prop := match x with SPartial n => In n P | SHelper n | SBlock n => In n U end.
Definition free (x : site) (l : list site) : Prop := match x with SPartial _ => existsb (site_eq x) l = false | _ => count_site x l < stack_max end.
Lemma exists_count n l : existsb (site_eq (SPartial n)) l = false -> count_site (SPartial n) l = 0.
Proof.
  induction l as [|x l IH]; cbn [existsb count_site]; [reflexivity|]. intros H. apply Bool.orb_false_iff in H. destruct H as [H1 H2].
  rewrite site_eq_sym, H1. apply IH, H2.
Qed.
Lemma cap_push x l : known x -> free x l -> cap (x :: l) < cap l.
Proof.
  intros Hk Hf. unfold cap. pose proof (sum_le _ _ U (room_app [x] l)) as Hu. pose proof (sum_le _ _ P (proom_app [x] l)) as Hp. cbn [app] in *.
  destruct x as [n|n|n]; simpl in Hk.
  - assert (X : proom (SPartial n :: l) n < proom l n). { apply exists_count in Hf. unfold proom. cbn [count_site]. rewrite site_eq_refl, Hf. lia. }
    pose proof (sum_lt _ _ P n (proom_app [SPartial n] l) Hk X). cbn [app] in *. lia.
  - unfold free in Hf. assert (X : room (SHelper n :: l) n < room l n). { unfold room. cbn [count_site]. rewrite site_eq_refl. change (site_eq (SHelper n) (SBlock n)) with false. cbn match. lia. }
    pose proof (sum_lt _ _ U n (room_app [SHelper n] l) Hk X). cbn [app] in *. lia.
  - unfold free in Hf. assert (X : room (SBlock n :: l) n < room l n). { unfold room. cbn [count_site]. rewrite site_eq_refl. change (site_eq (SBlock n) (SHelper n)) with false. cbn match. lia. }
    pose proof (sum_lt _ _ U n (room_app [SBlock n] l) Hk X). cbn [app] in *. lia.
Qed.
End Cap.

(** ** depth of recursion without a new call site *)
Fixpoint call_depth (c : call) : nat :=
  match c with mkCall _ _ _ _ t _ _ _ => match t with TPath _ => 1 | TSub c => S (call_depth c) end end.
Fixpoint node_size (n : node) : nat :=
  match n with
  | NDoc ns => S (list_sum (map node_size ns))
  | NStmt c => S (call_depth c)
  | NBlock b => block_size b
  | _ => 1
  end
with block_size (b : block) : nat :=
  match b with mkBlock ns _ _ _ c _ _ => S (call_depth c + list_sum (map node_size ns)) end.
Lemma child_size t n : In n (children t) -> node_size n < node_size t.
Proof.
  assert (X : forall ns, In n ns -> node_size n <= list_sum (map node_size ns)).
  { induction ns as [|m ns IH]; simpl; [contradiction|]. intros [->|H]; [lia|]. specialize (IH H). lia. }
  destruct t as [ns| | |[ns r o cl c k l]| | | |]; simpl; intros H; try contradiction; apply X in H; lia.
Qed.

Section Term.
Variables U P : list str.
Variable pl : plat.
Variable rg : registry.
Hypothesis HU : forall n h, In (n, h) (rg_helpers rg) -> In n U.
Hypothesis HUm : In helper_missing_name U.
Hypothesis HUb : In block_helper_missing_name U.
Hypothesis HUl : In link_name U.
Hypothesis HP : forall n t, In (n, t) (rg_templates rg) -> In n P.
Hypothesis HPb : In partial_block P.
Hypothesis Hregs : all_helpers (registers_in U) rg.
Definition here (en : env) : Prop := en_plat en = pl /\ en_reg en = rg.

Definition tinv (st : rst) : Prop :=
  (forall n h, In (n, h) (r_local st) -> In n U /\ forall c t, registers_in U (h c t))
  /\ (forall n t, In (n, t) (r_partials st) -> n = partial_block).
Definition longer (st s : rst) : Prop := exists xs, r_stack s = xs ++ r_stack st.
Lemma longer_refl s : longer s s. Proof. exists []. reflexivity. Qed.
Lemma longer_trans a b c : longer a b -> longer b c -> longer a c.
Proof. intros [x Hx] [y Hy]. exists (y ++ x). rewrite Hy, Hx, app_assoc. reflexivity. Qed.
Lemma longer_eq a b : r_stack b = r_stack a -> longer a b.
Proof. intros H. exists []. exact H. Qed.
Lemma longer_cap a b : longer a b -> cap U P (r_stack b) <= cap U P (r_stack a).
Proof. intros [x ->]. apply cap_app. Qed.
Definition after {A} (st : rst) (r : rres A) : Prop :=
  match r with ROk _ s | RErr _ s => tinv s /\ longer st s | _ => True end.
(** fuel-indexed computation [m] is monotone, well behaved and total at [st] *)
Definition tat {A} (m : nat -> M A) (st : rst) : Prop :=
  (forall f f', f <= f' -> le_res (m f st) (m f' st)) /\ (forall f, after st (m f st)) /\ (exists f, m f st <> RFuel).
Definition tspec {A} (c : nat) (m : nat -> M A) : Prop := forall st, tinv st -> cap U P (r_stack st) <= c -> tat m st.
Lemma after_longer {A} a b (r : rres A) : longer a b -> after b r -> after a r.
Proof. intros H. destruct r; simpl; auto; intros [H1 H2]; eauto using longer_trans. Qed.
Lemma le_ne {A} (m : nat -> rres A) f f' : le_res (m f) (m f') -> m f <> RFuel -> m f' = m f.
Proof. intros [E|E] H; [contradiction | symmetry; exact E]. Qed.

Lemma tat_catch {A B} (m : nat -> M A) (g : hres A -> nat -> M B) st : tat m st ->
  (forall r s, tinv s -> longer st s -> tat (g r) s) -> tat (fun f => mcatch (m f) (fun a => g a f)) st.
Proof.
  intros (M1 & M2 & f1 & M3) H.
  assert (X : forall f r s, (m f st = match r with HOk a => ROk a s | HErr e => RErr e s end) -> tat (g r) s /\ longer st s).
  { intros f r s E. specialize (M2 f). rewrite E in M2. destruct r; simpl in M2; destruct M2 as [I1 I2]; (split; [apply H; assumption | exact I2]). }
  split; [|split].
  - intros f f' Hf. unfold mcatch. destruct (M1 f f' Hf) as [E|E]; [rewrite E; left; reflexivity|]. rewrite <- E.
    destruct (m f st) as [a s|e s|p|] eqn:Em; try (right; reflexivity).
    + destruct (X f (HOk a) s Em) as [(G1 & _) _]. apply G1, Hf.
    + destruct (X f (HErr e) s Em) as [(G1 & _) _]. apply G1, Hf.
  - intros f. unfold mcatch. destruct (m f st) as [a s|e s|p|] eqn:Em; try exact I.
    + destruct (X f (HOk a) s Em) as [(_ & G2 & _) L]. eapply after_longer; [exact L | apply G2].
    + destruct (X f (HErr e) s Em) as [(_ & G2 & _) L]. eapply after_longer; [exact L | apply G2].
  - unfold mcatch. destruct (m f1 st) as [a s|e s|p|] eqn:Em; [| |exists f1; rewrite Em; discriminate | contradiction].
    + destruct (X f1 (HOk a) s Em) as [(G1 & _ & f2 & G3) _]. exists (max f1 f2).
      destruct (M1 f1 (max f1 f2) ltac:(lia)) as [E|E]; rewrite Em in E; [discriminate|]. rewrite <- E.
      destruct (G1 f2 (max f1 f2) ltac:(lia)) as [E'|E']; congruence.
    + destruct (X f1 (HErr e) s Em) as [(G1 & _ & f2 & G3) _]. exists (max f1 f2).
      destruct (M1 f1 (max f1 f2) ltac:(lia)) as [E|E]; rewrite Em in E; [discriminate|]. rewrite <- E.
      destruct (G1 f2 (max f1 f2) ltac:(lia)) as [E'|E']; congruence.
Qed.
Lemma bind_catch {A B} (m : M A) (g : A -> M B) st :
  bind m g st = mcatch m (fun r => match r with HOk a => g a | HErr e => fail e end) st.
Proof. unfold bind, mcatch, fail. destruct (m st); reflexivity. Qed.
Lemma tat_ext {A} (m m' : nat -> M A) st : (forall f, m' f st = m f st) -> tat m st -> tat m' st.
Proof.
  intros E (M1 & M2 & f1 & M3). split; [|split].
  - intros f f' Hf. rewrite !E. apply M1, Hf.
  - intros f. rewrite E. apply M2.
  - exists f1. rewrite E. exact M3.
Qed.
Lemma tat_const {A} (m : M A) st : m st <> RFuel -> after st (m st) -> tat (fun _ => m) st.
Proof. intros H1 H2. split; [|split]; [intros; right; reflexivity | intros; exact H2 | exists 0; exact H1]. Qed.
Lemma tat_fail {A} e st : tinv st -> tat (fun _ => @fail A e) st.
Proof. intros H. apply tat_const; [discriminate|]. split; [exact H | apply longer_refl]. Qed.
Lemma tat_ret {A} (a : A) st : tinv st -> tat (fun _ => ret a) st.
Proof. intros H. apply tat_const; [discriminate|]. split; [exact H | apply longer_refl]. Qed.
Lemma tat_bind {A B} (m : nat -> M A) (g : A -> nat -> M B) st : tat m st ->
  (forall a s, tinv s -> longer st s -> tat (g a) s) -> tat (fun f => bind (m f) (fun a => g a f)) st.
Proof.
  intros H Hg. apply (tat_ext (fun f => mcatch (m f) (fun r => match r with HOk a => g a f | HErr e => fail e end))).
  - intros f. apply bind_catch.
  - apply (tat_catch m (fun r f => match r with HOk a => g a f | HErr e => fail e end)); [exact H|].
    intros [a|e] s Hs Hl; [apply Hg; assumption | apply tat_fail, Hs].
Qed.
Section Level.
Variable c : nat.
Notation T := (tspec c).
Lemma t_bind {A B} (m : nat -> M A) (g : A -> nat -> M B) : T m -> (forall a, T (g a)) -> T (fun f => bind (m f) (fun a => g a f)).
Proof.
  intros Hm Hg st Hi Hc. apply tat_bind; [apply Hm; assumption|]. intros a s Hs Hl. apply Hg; [exact Hs|]. apply longer_cap in Hl. lia.
Qed.
Lemma t_catch {A B} (m : nat -> M A) (g : hres A -> nat -> M B) : T m -> (forall a, T (g a)) -> T (fun f => mcatch (m f) (fun a => g a f)).
Proof.
  intros Hm Hg st Hi Hc. apply tat_catch; [apply Hm; assumption|]. intros a s Hs Hl. apply Hg; [exact Hs|]. apply longer_cap in Hl. lia.
Qed.
Lemma t_ret {A} (a : A) : T (fun _ => ret a).
Proof. intros st Hi Hc. apply tat_ret, Hi. Qed.
Lemma t_fail {A} e : T (fun _ => @fail A e).
Proof. intros st Hi Hc. apply tat_fail, Hi. Qed.
Lemma t_need {A} (o : option A) : T (fun _ => need o).
Proof. destruct o; [apply t_ret|]. intros st Hi Hc. apply tat_const; [discriminate | exact I]. Qed.
Lemma t_get {A} (g : rst -> nat -> M A) : (forall s, tinv s -> cap U P (r_stack s) <= c -> tat (g s) s) -> T (fun f => bind get (fun s => g s f)).
Proof. intros H st Hi Hc. exact (H st Hi Hc). Qed.
Lemma t_read {A} (g : rst -> nat -> M A) : (forall s, T (g s)) -> T (fun f => bind get (fun s => g s f)).
Proof. intros H. apply t_get. intros s Hs Hc. apply H; assumption. Qed.
Lemma t_upd h : (forall s, tinv s -> tinv (h s) /\ r_stack (h s) = r_stack s) -> T (fun _ => upd h).
Proof. intros H st Hi Hc. apply tat_const; [discriminate|]. destruct (H st Hi). split; [assumption | apply longer_eq; assumption]. Qed.
(** a computation without recursion *)
Lemma t_const {A} (m : M A) : (forall st, tinv st -> m st <> RFuel /\ after st (m st)) -> T (fun _ => m).
Proof. intros H st Hi Hc. destruct (H st Hi). apply tat_const; assumption. Qed.
Ltac need := apply t_bind; [apply t_need|].
Lemma t_emit en s : T (fun _ => emit en s).
Proof. apply t_const. intros st Hi. unfold emit. destruct (en_write _ _ _); (split; [discriminate|]); (split; [exact Hi | apply longer_eq; reflexivity]). Qed.
Lemma t_write en s e : T (fun _ => write_str en s e).
Proof. unfold write_str. apply (t_read (fun s _ => _)). intros st. destruct (if ts_end (r_trim st) then _ else _); [apply t_ret | apply t_emit]. Qed.
Lemma t_write_u en s e : T (fun _ => write_str en s e ;; ret tt).
Proof. apply (t_bind (fun _ => write_str en s e) (fun _ _ => ret tt)); [apply t_write | intros; apply t_ret]. Qed.
Lemma t_lookup en src p : T (fun _ => mlookup en src p).
Proof. unfold mlookup. apply (t_read (fun s _ => _)). intros st. apply t_need. Qed.
Lemma t_evaluate en s : T (fun _ => evaluate en s).
Proof.
  unfold evaluate. pose proof (path_from_str_total (pl_penv (en_plat en)) s). destruct (path_from_str _ s) as [[p|] fs|e fs|p|]; [apply t_lookup | apply t_ret | apply t_fail | |congruence].
  apply t_const. intros st Hi. split; [discriminate | exact I].
Qed.
Lemma t_iter src (step : nat -> node -> trim_state -> bool -> bool -> M unit) ns :
  (forall n tr a b, In n ns -> T (fun f => step f n tr a b)) -> forall prev hint, T (fun f => iter_nodes src (step f) prev hint ns).
Proof.
  induction ns as [|n ns IH]; intros Hf prev hint; [apply t_ret|]. cbn [iter_nodes].
  destruct (match prev with Some b => (b, hint) | None => _ end) as [start hint'].
  apply (t_bind (fun _ => _) (fun stop f => _)).
  { destruct ns; [apply t_ret|]. apply (t_bind (fun _ => _) (fun h _ => _)); [apply t_need | intros; apply t_ret]. }
  intros stop. apply (t_bind (fun _ => _) (fun hn f => _)); [apply t_need|]. intros hn.
  apply (t_bind (fun f => _) (fun _ f => _)); [apply Hf; left; reflexivity|]. intros _. apply IH. intros. apply Hf. right. assumption.
Qed.
Lemma t_render en t : (forall n tr, In n (children (tp_node t)) -> T (fun f => k_node (tie f) en (tp_src t) n tr)) -> T (fun f => render_ (tie f) en t).
Proof. intros H. unfold render_. apply (t_iter (tp_src t) (fun f n tr _ _ => k_node (tie f) en (tp_src t) n tr)). intros. apply H. assumption. Qed.
Lemma t_template en t : (forall n tr, In n (children (tp_node t)) -> T (fun f => k_node (tie f) en (tp_src t) n tr)) -> T (fun f => template_ (tie f) en t).
Proof.
  intros H. unfold template_. cbv zeta. apply (t_read (fun s f => _)). intros st. apply (t_bind (fun f => _) (fun _ f => _)).
  - apply (t_iter (tp_src t) (fun f n tr a b => _)). intros n tr a b Hin. apply (t_bind (fun f => _) (fun x f => _)).
    { destruct a; [|apply t_ret]. apply (t_bind (fun _ => _) (fun h _ => _)); [apply t_need | intros; apply t_ret]. }
    intros tr1. apply (t_bind (fun f => _) (fun x f => _)); [|intros; apply H, Hin]. destruct b; [|apply t_ret]. destruct (tp_node t); try apply t_ret.
    apply (t_bind (fun _ => _) (fun h _ => _)); [apply t_need | intros; apply t_ret].
  - intros _. apply (t_bind (fun f => _) (fun x f => _)); [|intros h; apply t_upd; intros s Hs; split; [exact Hs | reflexivity]].
    destruct (children (tp_node t)); [apply t_ret|]. destruct (tp_node t); try apply t_ret. apply (t_bind (fun _ => _) (fun h _ => _)); [apply t_need | intros; apply t_ret].
Qed.

(** everything of this level, for any tree *)
Definition level : Prop := forall en, here en ->
  (forall src n tr, T (fun f => k_node (tie f) en src n tr))
  /\ (forall src cl, T (fun f => k_call (tie f) en src cl))
  /\ (forall src cl, T (fun f => k_stmt (tie f) en src cl)).
Hypothesis L : level.
Lemma t_inverse_go en src cs : here en -> forall alt, T (fun f => inverse_go (tie f) en src alt cs).
Proof.
  intros He. induction cs as [|n cs IH]; intros alt; [apply t_ret|]. destruct n; cbn [inverse_go]; try apply IH.
  destruct (call_is_empty (b_call b)); [apply IH|]. apply (t_bind (fun f => _) (fun x f => _)); [apply L, He|]. intros [v|]; [|apply IH]. destruct (is_truthy v); [apply t_ret | apply IH].
Qed.
Lemma t_inverse en t : here en -> T (fun f => inverse (tie f) en t).
Proof. intros He. unfold inverse. destruct (tp_node t); try apply t_ret. apply (t_bind (fun f => _) (fun x f => _)); [apply t_inverse_go, He | intros; apply t_ret]. Qed.
Lemma t_eval_param en src p : here en -> T (fun f => eval_param (tie f) en src p).
Proof.
  intros He. unfold eval_param. destruct p; [|apply t_ret|].
  - apply (t_bind (fun f => _) (fun x f => _)); [apply t_lookup|]. intros [v|]; [apply t_ret | apply (t_bind (fun f => _) (fun x f => _)); [apply t_need | intros; apply t_ret]].
  - apply (t_bind (fun f => _) (fun x f => _)); [apply L, He|]. intros [v|]; [apply t_ret | apply (t_bind (fun f => _) (fun x f => _)); [apply t_need | intros; apply t_ret]].
Qed.
Lemma t_arguments en src ps : here en -> forall i, T (fun f => arguments (tie f) en src i ps).
Proof.
  intros He. induction ps as [|p ps IH]; intros i; [apply t_ret|]. cbn [arguments]. apply (t_bind (fun f => _) (fun x f => _)); [apply t_eval_param, He|]. intros r.
  apply (t_bind (fun f => _) (fun x f => _)); [apply IH | intros; apply t_ret].
Qed.
Lemma t_hash_go en src ps : here en -> forall acc, T (fun f => hash_go (tie f) en src ps acc).
Proof.
  intros He. induction ps as [|[k p] ps IH]; intros acc; [apply t_ret|]. cbn [hash_go]. apply (t_bind (fun f => _) (fun x f => _)); [apply t_eval_param, He|]. intros r.
  apply (t_bind (fun f => _) (fun x f => _)); [apply IH | intros; apply t_ret].
Qed.
Lemma t_buffer en t : here en -> T (fun f => buffer (tie f) en t).
Proof.
  intros He st Hi Hc. set (st0 := up_scopes (r_scopes st) (r_new (r_stack st))).
  assert (X : tat (fun f => template_ (tie f) (en_with_string en) t) st0).
  { apply t_template; [intros; apply L; exact He | split; intros ? ? [] | exact Hc]. }
  destruct X as (M1 & M2 & f1 & M3). unfold buffer. split; [|split]; cbv beta; fold st0.
  - intros f f' Hf. cbv beta. fold st0. destruct (M1 f f' Hf) as [E|E]; rewrite E; [left | right]; reflexivity.
  - intros f. cbv beta. fold st0. destruct (template_ (tie f) _ _ st0); unfold after; try exact I; (split; [exact Hi | apply longer_refl]).
  - exists f1. cbv beta. fold st0. destruct (template_ _ _ _ st0); try discriminate. contradiction.
Qed.
Lemma t_once en file content data : here en -> T (fun f => once_ (tie f) en file content data).
Proof.
  intros He st Hi Hc. unfold once_. pose proof (compile_total (pl_penv (en_plat en)) (mkOpts file 0 0) content) as Ht.
  destruct (compile _ _ content) as [n fs|e fs|p|]; try (apply tat_const; [discriminate|]; try exact I; (split; [exact Hi | apply longer_refl])); [|congruence].
  assert (X : tat (fun f => render_ (tie f) (en_once en file data) (mkTpl content n)) (r_new (r_stack st))).
  { apply t_render; [intros; apply L; exact He | split; intros ? ? [] | exact Hc]. }
  destruct X as (M1 & M2 & f1 & M3). split; [|split].
  - intros f f' Hf. cbv beta. destruct (M1 f f' Hf) as [E|E]; rewrite E; [left | right]; reflexivity.
  - intros f. destruct (render_ (tie f) _ _ _); unfold after; try exact I; (split; [exact Hi | apply longer_refl]).
  - exists f1. destruct (render_ _ _ _ _); try discriminate. contradiction.
Qed.
Lemma t_run en p : here en -> registers_in U p -> T (fun f => run (tie f) en p).
Proof.
  intros He. induction p; cbn [run registers_in]; intros Hp.
  - apply t_ret.
  - apply t_fail.
  - apply t_const. intros. split; [discriminate | exact I].
  - apply (t_catch (fun f => _) (fun r f => _)); [apply t_template; intros; apply L, He | auto].
  - apply (t_catch (fun f => _) (fun r f => _)); [apply t_render; intros; apply L, He | auto].
  - apply (t_catch (fun f => _) (fun r f => _)); [apply t_buffer, He | auto].
  - apply (t_catch (fun f => _) (fun r f => _)); [apply t_once, He | auto].
  - apply (t_catch (fun f => _) (fun r f => _)); [apply t_inverse, He | auto].
  - apply (t_catch (fun f => _) (fun r f => _)); [apply t_write | auto].
  - apply (t_catch (fun f => _) (fun r f => _)); [apply t_emit | auto].
  - apply (t_bind (fun f => _) (fun r f => _)); [apply t_upd; intros s0 Hs; split; [exact Hs | reflexivity] | auto].
  - apply (t_read (fun s f => _)). intros st. destruct (r_scopes st); [auto|].
    apply (t_bind (fun f => _) (fun r f => _)); [apply t_upd; intros s0 Hs; split; [exact Hs | reflexivity] | auto].
  - apply (t_bind (fun f => _) (fun r f => _)); [|auto]. apply t_upd. intros s0 Hs. destruct (r_scopes s0); (split; [exact Hs | reflexivity]).
  - apply (t_catch (fun f => _) (fun r f => _)); [apply t_evaluate | auto].
  - destruct Hp as (Hn & Hh & Hp). apply (t_bind (fun f => _) (fun r f => _)); [|auto]. apply t_upd. intros s0 [H1 H2]. split; [|reflexivity]. split; [|exact H2].
    intros n g Hg. cbn [up_local r_local] in Hg. apply assoc_set_in in Hg. destruct Hg as [[-> ->]|Hg]; [split; assumption | exact (H1 n g Hg)].
  - apply (t_bind (fun f => _) (fun r f => _)); [|auto]. apply t_upd. intros s0 [H1 H2]. split; [|reflexivity]. split; [|exact H2].
    intros n g Hg. cbn [up_local r_local] in Hg. apply assoc_del_in in Hg. exact (H1 n g Hg).
  - auto.
  - auto.
  - apply (t_read (fun s f => _)). auto.
  - auto.
  - auto.
Qed.
End Level.

(** one more call site on the stack *)
Lemma t_bracket {A} c x (body : nat -> M A) : (forall c', c' < c -> tspec c' body) -> forall s, tinv s -> cap U P (r_stack s) <= c ->
  known U P x -> free x (r_stack s) -> tat (fun f => upd (push_site x) ;; let* v := body f in upd pop_stack ;; ret v) s.
Proof.
  intros Hb s Hi Hc Hk Hf. pose proof (cap_push U P x _ Hk Hf) as Hp. set (sp := push_site x s).
  destruct (Hb (cap U P (r_stack sp)) ltac:(unfold sp, push_site; cbn [r_stack up_stack]; lia) sp Hi (le_n _)) as (M1 & M2 & f1 & M3).
  unfold bind, upd, ret. split; [|split].
  - intros f f' Hf'. cbv beta iota. fold sp. destruct (M1 f f' Hf') as [E|E]; rewrite E; [left | right]; reflexivity.
  - intros f. cbv beta iota. fold sp. specialize (M2 f). destruct (body f sp) as [a s'|e s'|q|]; try exact I; destruct M2 as [I1 [xs I2]].
    + split; [exact I1|]. unfold sp, push_site in I2. cbn [r_stack up_stack] in I2. unfold longer, pop_stack. cbn [r_stack up_stack]. rewrite I2.
      destruct xs as [|y xs]; [exists []; reflexivity | exists (xs ++ [x]); cbn [tl app]; rewrite <- app_assoc; reflexivity].
    + split; [exact I1|]. unfold sp, push_site in I2. cbn [r_stack up_stack] in I2. exists (xs ++ [x]). rewrite <- app_assoc. exact I2.
  - exists f1. cbv beta iota. fold sp. destruct (body f1 sp); try discriminate. contradiction.
Qed.
Section Step.
Variable c : nat.
Hypothesis IH : forall c', c' < c -> level c'.
Notation T := (tspec c).
Lemma assoc_in {A} n (l : list (str * A)) v : assoc n l = Some v -> In (n, v) l.
Proof.
  induction l as [|[k w] l IHl]; simpl; [discriminate|]. destruct (streq n k) eqn:E; [|auto]. apply streq_eq in E. intros H. injection H as <-. left. congruence.
Qed.
Lemma t_invoke en src name tg cl content text prop : here en -> In name U ->
  match tg with ByRef h => forall c t, registers_in U (h c t) | ByName _ => True end ->
  T (fun f => invoke (tie f) en src name tg cl content text prop).
Proof.
  intros He Hn Htg. unfold invoke. cbv zeta. apply (t_get c (fun s f => _)). intros st Hi Hc.
  set (x := match content with Some _ => SBlock name | None => SHelper name end).
  destruct (Nat.leb_spec stack_max (count_site x (r_stack st))) as [Hx|Hx]; [apply tat_fail, Hi|].
  set (body := fun f => let* a := arguments (tie f) en src 0 (c_args cl) in let* h := hash (tie f) en src cl in
     let* s := get in
     match tg with
     | ByName n => match assoc n (r_local s) with
                   | Some g => run (tie f) en (g (mkHctx cl src name (fst a) (fst h) text prop (snd a ++ snd h)) content)
                   | None => match assoc n (rg_helpers (en_reg en)) with
                             | Some g => run (tie f) en (g (mkHctx cl src name (fst a) (fst h) text prop (snd a ++ snd h)) content)
                             | None => ret None end end
     | ByRef g => run (tie f) en (g (mkHctx cl src name (fst a) (fst h) text prop (snd a ++ snd h)) content) end).
  assert (Hb : forall c', c' < c -> tspec c' body).
  { intros c' Hc'. pose proof (IH c' Hc') as L. unfold body. apply (t_bind c' (fun f => _) (fun a f => _)); [apply (t_arguments _ L), He|]. intros a.
    apply (t_bind c' (fun f => _) (fun a f => _)); [apply (t_hash_go _ L), He|]. intros h. apply (t_get c' (fun s f => _)). intros s Hs Hcs.
    destruct tg as [n|g]; [|apply (t_run _ L); auto].
    destruct (assoc n (r_local s)) as [g|] eqn:E1; [apply (t_run _ L); auto; apply assoc_in in E1; apply Hs in E1; apply E1|].
    destruct (assoc n (rg_helpers (en_reg en))) as [g|] eqn:E2; [|apply tat_ret, Hs]. apply (t_run _ L); auto. apply assoc_in in E2. destruct He as [_ He]. rewrite He in E2.
    destruct Hregs as (R1 & _). exact (R1 _ _ E2 _ _). }
  assert (Hk : known U P x) by (subst x; destruct content; exact Hn).
  assert (Hf : free x (r_stack st)) by (subst x; destruct content; exact Hx).
  apply (tat_ext (fun f => upd (push_site x) ;; let* v := body f in upd pop_stack ;; ret v)).
  - intros f. apply bind_ext. intros _ s. unfold body. rewrite bind_assoc. apply bind_ext. intros a s'. rewrite bind_assoc. apply bind_ext. intros h s''.
    rewrite bind_assoc. reflexivity.
  - apply (t_bracket c x body Hb st Hi Hc Hk Hf).
Qed.
Lemma has_helper_known en name s : here en -> tinv s -> has_helper en name s = true -> In name U.
Proof.
  intros [_ He] [Hs _]. unfold has_helper. destruct (assoc name (r_local s)) as [h|] eqn:E; [intros _; apply assoc_in, Hs in E; apply E|].
  destruct (assoc name (rg_helpers (en_reg en))) as [h|] eqn:E2; [|discriminate]. intros _. apply assoc_in in E2. rewrite He in E2. exact (HU _ _ E2).
Qed.
Lemma t_resolve en src p : T (fun _ => resolve en src p).
Proof.
  unfold resolve. apply (t_bind c (fun f => _) (fun a f => _)); [apply t_lookup|]. intros [v|]; [apply t_ret|]. destruct (rg_strict (en_reg en)); [|apply t_ret].
  apply (t_bind c (fun f => _) (fun a f => _)); [apply t_need | intros; apply t_fail].
Qed.
(** [n]: depth for which calls and nodes are known to end *)
Section Size.
Variable en : env.
Hypothesis He : here en.
Variable n : nat.
Hypothesis Hcall : forall src cl, call_depth cl < n -> T (fun f => k_call (tie f) en src cl).
Hypothesis Hstmt : forall src cl, call_depth cl < n -> T (fun f => k_stmt (tie f) en src cl).
Hypothesis Hnode : forall src nd tr, node_size nd < n -> T (fun f => k_node (tie f) en src nd tr).
Let Hm h : rg_missing (en_reg en) = Some h -> forall c t, registers_in U (h c t).
Proof. destruct He as [_ E]. rewrite E. apply Hregs. Qed.
Let Hbm h : rg_block_missing (en_reg en) = Some h -> forall c t, registers_in U (h c t).
Proof. destruct He as [_ E]. rewrite E. apply Hregs. Qed.
Let Hlk h : rg_link (en_reg en) = Some h -> forall c t, registers_in U (h c t).
Proof. destruct He as [_ E]. rewrite E. apply Hregs. Qed.
Lemma t_call src cl : call_depth cl <= n -> T (fun f => call_ (tie f) en src cl).
Proof.
  intros Hd. unfold call_. destruct cl as [pa co op cls tg ar hs ln]. cbn [c_target]. destruct tg as [p|sub]; [|apply Hcall; simpl in Hd; lia].
  destruct (pa_explicit p); [apply t_lookup|]. destruct (path_is_simple p); [|apply t_resolve].
  apply (t_bind c (fun f => _) (fun a f => _)); [apply t_need|]. intros name. apply (t_get c (fun s f => _)). intros st Hi Hc.
  destruct (has_helper en name st) eqn:Eh; [apply t_invoke; auto; [exact (has_helper_known en name st He Hi Eh)]|].
  revert st Hi Hc Eh. intros st Hi Hc _. revert st Hi Hc. change (T (fun f => let* v := mlookup en src p in
    match v with
    | Some v => ret (Some v)
    | None => match rg_missing (en_reg en) with
              | Some h => invoke (tie f) en src helper_missing_name (ByRef h) (mkCall pa co op cls (TPath p) ar hs ln) None None None
              | None => if rg_strict (en_reg en) then fail (EVariableNotFound name (en_name en)) else ret None end end)).
  apply (t_bind c (fun f => _) (fun a f => _)); [apply t_lookup|]. intros [v|]; [apply t_ret|].
  destruct (rg_missing (en_reg en)) as [h|] eqn:E; [apply t_invoke; auto|]. destruct (rg_strict (en_reg en)); [apply t_fail | apply t_ret].
Qed.
Lemma t_partial_name src cl : call_depth cl <= n -> T (fun f => get_partial_name (tie f) en src cl).
Proof.
  intros Hd. unfold get_partial_name. destruct cl as [pa co op cls tg ar hs ln]. cbn [c_target]. destruct tg as [p|sub].
  - apply (t_bind c (fun f => _) (fun a f => _)); [apply t_need|]. intros s. destruct (streq s partial_block); [apply t_ret|]. destruct (path_is_simple p); [apply t_ret | apply t_fail].
  - apply (t_bind c (fun f => _) (fun a f => _)); [apply Hstmt; simpl in Hd; lia | intros; apply t_ret].
Qed.
Definition partial_body (src : str) (cl : call) (pb : option tpl) (name : str) (f : nat) : M unit :=
    (match pb with
     | Some t => upd (fun st => up_partials (assoc_set partial_block t (r_partials st)) st)
     | None => ret tt
     end) ;;
    let* st := get in
    let* t := (match assoc name (r_partials st) with
               | Some t => ret t
               | None =>
                   match assoc name (rg_templates (en_reg en)) with
                   | Some te => upd (fun st => up_names (te_file te :: r_names st) st) ;; ret (te_tpl te)
                   | None => fail (EPartialNotFound name)
                   end
               end) in
    let* h := hash (tie f) en src cl in
    let* sc := (match c_args cl with
                | [] => ret (mkScope (Some (JObj (fst h))) [])
                | _ =>
                    let* a := arguments (tie f) en src 0 (c_args cl) in
                    match fst a with
                    | x :: _ => ret (mkScope (Some x) (fst h))
                    | [] => ret (mkScope (Some (JObj (fst h))) [])
                    end
                end) in
    upd (fun st => up_scopes (sc :: r_scopes st) st) ;;
    let* st := get in
    iter_nodes (tp_src t) (fun n tr _ _ => k_node (tie f) en (tp_src t) n tr) None (r_hint st)
               (children (tp_node t)) ;;
    upd (fun st => up_scopes (tl (r_scopes st)) st) ;;
    upd (fun st => up_names (tl (r_names st)) st).
Lemma set_block_inv t s : tinv s -> tinv (up_partials (assoc_set partial_block t (r_partials s)) s).
Proof.
  intros [H1 H2]. split; [exact H1|]. intros m t' Hin. cbn [up_partials r_partials] in Hin. apply assoc_set_in in Hin. destruct Hin as [[-> _]|Hin]; [reflexivity | exact (H2 _ _ Hin)].
Qed.
Lemma t_partial_body src cl pb name c' : level c' -> tspec c' (partial_body src cl pb name).
Proof.
  intros L. unfold partial_body. apply (t_bind c' (fun f => _) (fun a f => _)).
  { destruct pb; [|apply t_ret]. apply t_upd. intros s Hs. split; [apply set_block_inv, Hs | reflexivity]. }
  intros _. apply (t_read c' (fun s f => _)). intros s. apply (t_bind c' (fun f => _) (fun a f => _)).
  { destruct (assoc name (r_partials s)); [apply t_ret|]. destruct (assoc name (rg_templates (en_reg en))); [|apply t_fail].
    apply (t_bind c' (fun f => _) (fun a f => _)); [apply t_upd; intros s' Hs'; split; [exact Hs' | reflexivity] | intros; apply t_ret]. }
  intros t. apply (t_bind c' (fun f => _) (fun a f => _)); [apply (t_hash_go _ L), He|]. intros h. apply (t_bind c' (fun f => _) (fun a f => _)).
  { destruct (c_args cl); [apply t_ret|]. apply (t_bind c' (fun f => _) (fun a f => _)); [apply (t_arguments _ L), He|]. intros a. destruct (fst a); apply t_ret. }
  intros sc. apply (t_bind c' (fun f => _) (fun a f => _)); [apply t_upd; intros s' Hs'; split; [exact Hs' | reflexivity]|]. intros _.
  apply (t_read c' (fun s f => _)). intros s'. apply (t_bind c' (fun f => _) (fun a f => _)).
  { apply (t_iter c' (tp_src t) (fun f n tr _ _ => k_node (tie f) en (tp_src t) n tr)). intros. apply L, He. }
  intros _. apply (t_bind c' (fun f => _) (fun a f => _)); [apply t_upd; intros s2 Hs2; split; [exact Hs2 | reflexivity]|]. intros _.
  apply t_upd; intros s2 Hs2; split; [exact Hs2 | reflexivity].
Qed.
Lemma t_partial src cl pb : call_depth cl <= n -> T (fun f => render_partial (tie f) en src cl pb).
Proof.
  intros Hd. unfold render_partial. apply (t_bind c (fun f => _) (fun a f => _)); [apply t_partial_name, Hd|]. intros name. apply (t_get c (fun s f => _)). intros st Hi Hc.
  destruct (existsb (site_eq (SPartial name)) (r_stack st)) eqn:Ex; [apply tat_fail, Hi|].
  apply (tat_ext (fun f => let* v := (upd (push_site (SPartial name)) ;; let* v := partial_body src cl pb name f in upd pop_stack ;; ret v) in ret v)).
  { intros f. assert (W : forall (m : M unit) s, bind m (fun v => ret v) s = m s) by (intros m s; unfold bind, ret; destruct (m s) as [[] ?|? ?|?|]; reflexivity). rewrite W.
    apply bind_ext. intros _ s. unfold partial_body. rewrite bind_assoc. apply bind_ext. intros _ s1.
    rewrite !bind_assoc. apply bind_ext. intros s2 s3. rewrite !bind_assoc. apply bind_ext. intros t s4. rewrite !bind_assoc. apply bind_ext. intros h s5.
    rewrite !bind_assoc. apply bind_ext. intros sc s6. rewrite !bind_assoc. apply bind_ext. intros _ s7.
    rewrite !bind_assoc. apply bind_ext. intros s8 s9. rewrite bind_assoc. apply bind_ext. intros v s10. rewrite !bind_assoc. apply bind_ext. intros _ s11.
    unfold bind, ret, upd. reflexivity. }
  apply (tat_bind (fun f => _) (fun a f => _)); [|intros; apply tat_ret; assumption].
  destruct (in_dec str_eq_dec name P) as [Hin|Hout].
  - apply t_bracket with (c := c); auto. intros c' Hc'. apply t_partial_body, IH, Hc'.
  - (* not a template: the lookup fails *)
    assert (Hnb : name <> partial_block) by (intros ->; contradiction).
    assert (Ht : assoc name (rg_templates (en_reg en)) = None).
    { destruct (assoc name (rg_templates (en_reg en))) as [te|] eqn:E; [|reflexivity]. apply assoc_in in E. destruct He as [_ Hr]. rewrite Hr in E. contradiction (Hout (HP _ _ E)). }
    assert (Hn1 : forall s, tinv s -> assoc name (r_partials s) = None).
    { intros s [_ Hs]. destruct (assoc name (r_partials s)) as [te|] eqn:E; [|reflexivity]. apply assoc_in, Hs in E. contradiction. }
    set (sp := push_site (SPartial name) st).
    set (sf := match pb with Some t => up_partials (assoc_set partial_block t (r_partials sp)) sp | None => sp end).
    assert (Hsf : tinv sf) by (unfold sf; destruct pb; [apply set_block_inv|]; exact Hi).
    assert (Ef : forall f, (upd (push_site (SPartial name)) ;; let* v := partial_body src cl pb name f in upd pop_stack ;; ret v) st = RErr (EPartialNotFound name) sf).
    { intros f. unfold bind at 1. unfold upd at 1. fold sp. unfold bind at 1. unfold partial_body. unfold bind at 1. fold sf.
      replace ((match pb with Some t => upd (fun s => up_partials (assoc_set partial_block t (r_partials s)) s) | None => ret tt end) sp) with (ROk tt sf) by (unfold sf; destruct pb; reflexivity).
      unfold bind at 1, get at 1. unfold bind at 1. rewrite (Hn1 sf Hsf), Ht. reflexivity. }
    assert (Hlong : longer st sf) by (unfold sf; destruct pb; exists [SPartial name]; reflexivity).
    split; [|split].
    + intros f f' _. rewrite !Ef. right. reflexivity.
    + intros f. rewrite Ef. split; assumption.
    + exists 0. rewrite Ef. discriminate.
Qed.
Lemma t_stmt src cl : call_depth cl <= n -> T (fun f => stmt_ (tie f) en src cl).
Proof.
  intros Hd. unfold stmt_. destruct (c_partial cl); [|apply t_call, Hd]. apply (t_bind c (fun f => _) (fun a f => _)); [apply t_partial, Hd | intros; apply t_ret].
Qed.
Lemma t_block_missing t cl text raw : node_size (tp_node t) <= n -> T (fun f => block_missing (tie f) en t cl text raw).
Proof.
  intros Hd. unfold block_missing. cbv zeta. destruct raw; [destruct text; [apply t_write_u | apply t_ret]|].
  destruct (c_target cl); [|apply t_ret]. apply (t_bind c (fun f => _) (fun a f => _)); [apply t_lookup|]. intros [v|].
  - destruct (rg_block_missing (en_reg en)) as [h|] eqn:E.
    + apply (t_bind c (fun f => _) (fun a f => _)); [apply t_need|]. intros name. apply (t_bind c (fun f => _) (fun a f => _)); [apply t_invoke; auto | intros; apply t_ret].
    + apply t_template. intros nd tr Hin. apply Hnode. apply child_size in Hin. lia.
  - destruct (rg_missing (en_reg en)) as [h|] eqn:E; [apply (t_bind c (fun f => _) (fun a f => _)); [apply t_invoke; auto | intros; apply t_ret]|].
    destruct (rg_strict (en_reg en)); [|apply t_ret]. apply (t_bind c (fun f => _) (fun a f => _)); [apply t_need | intros; apply t_fail].
Qed.
Lemma t_raw_text src b : T (fun _ => raw_text src b).
Proof.
  unfold raw_text. apply (t_bind c (fun f => _) (fun a f => _)); [destruct (b_nodes b); [apply t_ret | apply t_need]|]. intros s.
  apply (t_bind c (fun f => _) (fun a f => _)); [apply t_need|]. intros hint. apply (t_bind c (fun f => _) (fun a f => _)); [apply t_need|]. intros h. cbv zeta.
  apply (t_bind c (fun f => _) (fun a f => _)); [apply t_upd; intros s' Hs'; split; [exact Hs' | reflexivity] | intros; apply t_ret].
Qed.
Lemma t_block src b : block_size b <= n -> T (fun f => block_ (tie f) en src b).
Proof.
  intros Hd. unfold block_. cbv zeta. assert (Hcd : call_depth (b_call b) <= n) by (destruct b; simpl in *; lia).
  destruct (c_partial (b_call b)); [apply t_partial, Hcd|]. destruct (c_target (b_call b)) as [p|sub]; [|apply t_fail].
  destruct (path_is_simple p); [|apply (t_bind c (fun f => _) (fun a f => _)); [apply t_need | intros; apply t_fail]].
  apply (t_bind c (fun f => _) (fun a f => _)).
  { destruct (b_raw b); [|apply t_ret]. apply (t_bind c (fun f => _) (fun a f => _)); [apply t_raw_text | intros; apply t_ret]. }
  intros text. apply (t_bind c (fun f => _) (fun a f => _)); [apply t_need|]. intros name. apply (t_get c (fun s f => _)). intros st Hi Hc.
  destruct (has_helper en name st) eqn:Eh; [|apply t_block_missing; assumption].
  apply (tat_bind (fun f => _) (fun a f => _)); [|intros; apply tat_ret; assumption]. apply t_invoke; auto. exact (has_helper_known en name st He Hi Eh).
Qed.
Lemma t_node_body src nd : node_size nd <= n -> T (fun f => node_body (tie f) en src nd).
Proof.
  intros Hd. unfold node_body. destruct nd; try apply t_ret.
  - apply (t_bind c (fun f => _) (fun a f => _)); [apply t_need|]. intros s. apply t_write_u.
  - apply (t_bind c (fun f => _) (fun a f => _)); [apply Hstmt; simpl in Hd; lia|]. intros [v|]; [|apply t_ret].
    apply (t_bind c (fun f => _) (fun a f => _)); [apply t_need|]. intros e. apply t_write_u.
  - apply t_block. exact Hd.
  - apply (t_bind c (fun f => _) (fun a f => _)); [apply t_need|]. intros s. apply (t_bind c (fun f => _) (fun a f => _)); [apply t_need|]. intros s'. apply t_write_u.
  - apply (t_bind c (fun f => _) (fun a f => _)); [apply t_need|]. intros e.
    destruct e; [apply (t_bind c (fun f => _) (fun a f => _)); [apply t_need|]; intros s; apply t_write_u|].
    assert (W : T (fun _ => let* s := need (link_str src l) in write_str en s false;; ret tt)).
    { apply (t_bind c (fun f => _) (fun a f => _)); [apply t_need|]; intros s; apply t_write_u. }
    destruct (pl_links (en_plat en)); [|exact W]. destruct (rg_link (en_reg en)) as [h|] eqn:E; [|exact W].
    unfold link_. apply (t_bind c (fun f => _) (fun a f => _)); [apply t_need|]. intros href. apply (t_bind c (fun f => _) (fun a f => _)); [apply t_need|]. intros label.
    apply (t_bind c (fun f => _) (fun a f => _)); [apply t_need|]. intros title. apply (t_bind c (fun f => _) (fun a f => _)); [apply t_invoke; auto | intros; apply t_ret].
Qed.
Lemma t_node src nd tr : node_size nd <= n -> T (fun f => node_ (tie f) en src nd tr).
Proof.
  intros Hd. unfold node_. apply (t_bind c (fun f => _) (fun a f => _)); [apply t_upd; intros s' Hs'; split; [exact Hs' | reflexivity]|]. intros _.
  apply (t_bind c (fun f => _) (fun a f => _)); [apply t_need|]. intros h. apply (t_bind c (fun f => _) (fun a f => _)); [apply t_upd; intros s' Hs'; split; [exact Hs' | reflexivity]|]. intros _.
  apply (t_bind c (fun f => _) (fun a f => _)); [|intros; apply t_node_body, Hd]. apply t_upd. intros s Hs. destruct (r_end s) as [e|]; [|split; [exact Hs | reflexivity]].
  destruct (th_after e); (split; [exact Hs | reflexivity]).
Qed.
End Size.
(** from [F (tie f)] to the knot of one level more *)
Lemma t_shift {A} (m m' : nat -> M A) : (forall f, m' (S f) = m f) -> (forall st, m' 0 st = RFuel) -> T m -> T m'.
Proof.
  intros HS H0 H st Hi Hc. destruct (H st Hi Hc) as (M1 & M2 & f1 & M3). split; [|split].
  - intros [|f] f' Hf; [left; apply H0|]. destruct f' as [|f']; [lia|]. rewrite !HS. apply M1. lia.
  - intros [|f]; [rewrite H0; exact I | rewrite HS; apply M2].
  - exists (S f1). rewrite HS. exact M3.
Qed.
Lemma step_level : level c.
Proof.
  intros en He. assert (X : forall n,
    (forall src nd tr, node_size nd < n -> T (fun f => k_node (tie f) en src nd tr))
    /\ (forall src cl, call_depth cl < n -> T (fun f => k_call (tie f) en src cl))
    /\ (forall src cl, call_depth cl < n -> T (fun f => k_stmt (tie f) en src cl))).
  { induction n as [|n (A & B & C)]; [split; [|split]; intros; lia|]. split; [|split]; [intros src nd tr|intros src cl|intros src cl].
    - intros H. apply (t_shift (fun f => node_ (tie f) en src nd tr)); [reflexivity | reflexivity|]. apply (t_node en He n); auto. lia.
    - intros H. apply (t_shift (fun f => call_ (tie f) en src cl)); [reflexivity | reflexivity|]. apply (t_call en He n); auto. lia.
    - intros H. apply (t_shift (fun f => stmt_ (tie f) en src cl)); [reflexivity | reflexivity|]. apply (t_stmt en He n); auto. lia. }
  split; [|split]; [intros src n tr|intros src cl|intros src cl].
  - destruct (X (S (node_size n))) as (A & _). apply A. lia.
  - destruct (X (S (call_depth cl))) as (_ & B & _). apply B. lia.
  - destruct (X (S (call_depth cl))) as (_ & _ & C). apply C. lia.
Qed.
End Step.
Lemma all_levels c : level c.
Proof. induction c as [c IH] using lt_wf_ind. apply step_level, IH. Qed.
Lemma render_ends en t st : here en -> tinv st -> exists f, render_ (tie f) en t st <> RFuel.
Proof.
  intros He Hi. destruct (t_render (cap U P (r_stack st)) en t) with (st := st) as (_ & _ & H); auto. intros. apply all_levels, He.
Qed.
End Term.
