(** * RelFacts: two renders compared step by step.  Used for fuel, output independence and hash order. *)
From Coq Require Import Lia String.
From Verif Require Import Str Json Ast ErrInfo Parser Render Helpers Spec_Render.
Open Scope nat_scope. Open Scope list_scope.

Lemma hall_weaken (Q Q' : helper -> Prop) (H : forall h, Q h -> Q' h) : forall p, hall Q p -> hall Q' p.
Proof. induction p; simpl; intros; auto. destruct H1 as (A & B & C). auto. Qed.
Lemma hall_trivial (Q : helper -> Prop) (H : forall h, Q h) : forall p, hall Q p.
Proof. induction p; simpl; intros; auto. Qed.

Section Rel.
Variable RO : list str -> list str -> Prop.         (* related outputs *)
Variable RM : list missing_value -> list missing_value -> Prop.   (* related lists of missing values *)
Hypothesis RM_app : forall a b b', RM b b' -> RM (a ++ b) (a ++ b').
Variable Q : helper -> Prop.
Definition ctx_rel (c c' : hctx) : Prop :=
  hc_call c = hc_call c' /\ hc_src c = hc_src c' /\ hc_name c = hc_name c' /\ hc_args c = hc_args c'
  /\ hc_params c = hc_params c' /\ hc_text c = hc_text c' /\ hc_property c = hc_property c' /\ RM (hc_missing c) (hc_missing c').
Hypothesis Q_blind : forall h, Q h -> forall c c' t, ctx_rel c c' -> h c t = h c' t.
Definition good (h : helper) : Prop := Q h /\ forall c t, hall Q (h c t).
Definition locals_good (l : list (str * helper)) : Prop := Forall (fun kh => good (snd kh)) l.

Variable SI : list site -> Prop.      (* an invariant of the call stack *)
Hypothesis SI_push : forall x l, SI l ->
  match x with SPartial _ => existsb (site_eq x) l = false | _ => count_site x l < stack_max end -> SI (x :: l).
Hypothesis SI_pop : forall l, SI l -> SI (tl l).
Definition sound (s : rst) : Prop := locals_good (r_local s) /\ SI (r_stack s).
Definition RS (s1 s2 : rst) : Prop := exists o, s2 = up_out o s1 /\ RO (r_out s1) o /\ sound s1.
Definition rel {A} (RA : A -> A -> Prop) (r1 r2 : rres A) : Prop :=
  match r1, r2 with
  | RFuel, _ => True
  | ROk a s, ROk a' s' => RA a a' /\ RS s s'
  | RErr e s, RErr e' s' => e = e' /\ RS s s'
  | RPanic p, RPanic p' => p = p'
  | _, _ => False
  end.
Definition mrel {A} (RA : A -> A -> Prop) (m1 m2 : M A) : Prop := forall s1 s2, RS s1 s2 -> rel RA (m1 s1) (m2 s2).

Lemma mrel_bind {A B} (RA : A -> A -> Prop) (RB : B -> B -> Prop) (m1 m2 : M A) (f1 f2 : A -> M B) :
  mrel RA m1 m2 -> (forall a a', RA a a' -> mrel RB (f1 a) (f2 a')) -> mrel RB (bind m1 f1) (bind m2 f2).
Proof.
  intros H Hf s1 s2 Hs. specialize (H s1 s2 Hs). unfold bind.
  destruct (m1 s1) as [a s|e s|p|] eqn:E1, (m2 s2) as [a' s'|e' s'|p'|] eqn:E2; simpl in H; try contradiction; try exact I; try exact H.
  destruct H as [Ha Hs']. exact (Hf a a' Ha s s' Hs').
Qed.
Lemma mrel_bind_eq {A B} (RB : B -> B -> Prop) (m1 m2 : M A) (f1 f2 : A -> M B) :
  mrel eq m1 m2 -> (forall a, mrel RB (f1 a) (f2 a)) -> mrel RB (bind m1 f1) (bind m2 f2).
Proof. intros H Hf. eapply mrel_bind; [exact H|]. intros a a' <-. apply Hf. Qed.
Lemma mrel_catch {A B} (RB : B -> B -> Prop) (m1 m2 : M A) (f1 f2 : hres A -> M B) :
  mrel eq m1 m2 -> (forall a, mrel RB (f1 a) (f2 a)) -> mrel RB (mcatch m1 f1) (mcatch m2 f2).
Proof.
  intros H Hf s1 s2 Hs. specialize (H s1 s2 Hs). unfold mcatch.
  destruct (m1 s1) as [a s|e s|p|] eqn:E1, (m2 s2) as [a' s'|e' s'|p'|] eqn:E2; simpl in H; try contradiction; try exact I; try exact H.
  - destruct H as [<- Hs']. apply Hf, Hs'.
  - destruct H as [<- Hs']. apply Hf, Hs'.
Qed.
Lemma mrel_ret {A} (RA : A -> A -> Prop) (a a' : A) : RA a a' -> mrel RA (ret a) (ret a').
Proof. intros H s1 s2 Hs. split; assumption. Qed.
Lemma mrel_fail {A} (RA : A -> A -> Prop) e : mrel RA (fail e) (fail e).
Proof. intros s1 s2 Hs. split; [reflexivity | exact Hs]. Qed.
Lemma mrel_panic {A} (RA : A -> A -> Prop) p : mrel RA (mpanic p) (mpanic p).
Proof. intros s1 s2 Hs. reflexivity. Qed.
Lemma mrel_need {A} (o : option A) : mrel eq (need o) (need o).
Proof. destruct o; [apply mrel_ret; reflexivity | apply mrel_panic]. Qed.
(** reading the state: the two states differ only in their output *)
Lemma mrel_get {B} (RB : B -> B -> Prop) (f1 f2 : rst -> M B) :
  (forall s1 s2, RS s1 s2 -> rel RB (f1 s1 s1) (f2 s2 s2)) -> mrel RB (bind get f1) (bind get f2).
Proof. intros H s1 s2 Hs. apply H, Hs. Qed.
Lemma mrel_upd (f : rst -> rst) : (forall s o, f (up_out o s) = up_out o (f s)) -> (forall s, r_out (f s) = r_out s) ->
  (forall s, sound s -> sound (f s)) -> mrel eq (upd f) (upd f).
Proof.
  intros H1 H2 H3 s1 s2 (o & -> & Ho & Hl). split; [reflexivity|]. exists o. rewrite H1, H2. split; [reflexivity|].
  split; [exact Ho | apply H3, Hl].
Qed.
Ltac rupd := apply mrel_upd; [intros [] ?; reflexivity | intros []; reflexivity | intros [] ?; assumption].
Lemma mrel_read {A B} (RB : B -> B -> Prop) (g : rst -> A) (f1 f2 : A -> M B) : (forall s o, g (up_out o s) = g s) ->
  (forall a, mrel RB (f1 a) (f2 a)) -> mrel RB (bind get (fun st => f1 (g st))) (bind get (fun st => f2 (g st))).
Proof. intros Hg Hf. apply mrel_get. intros s1 s2 Hs. pose proof Hs as (o & -> & Ho & Hl). rewrite Hg. apply Hf, Hs. Qed.

(** read the state on both sides, leaving an [mrel] goal *)
Ltac mget := apply mrel_get; let s1 := fresh "s1" in let s2 := fresh "s2" in let Hs := fresh "Hs" in let o := fresh "o" in let Hl := fresh "Hl" in
  intros s1 s2 Hs; pose proof Hs as (o & -> & _ & Hl);
  cbn [up_out r_local r_partials r_scopes r_trim r_hint r_end r_stack r_names];
  match goal with |- rel ?RB (?m1 s1) (?m2 _) => refine ((_ : mrel RB m1 m2) _ _ Hs); clear Hs end.
Variables K1 K2 : knot.
Variables en1 en2 : env.
Record env_rel : Prop := mkER {
  er_reg : en_reg en2 = en_reg en1; er_name : en_name en2 = en_name en1; er_root : en_root en2 = en_root en1;
  er_penv : pl_penv (en_plat en2) = pl_penv (en_plat en1); er_fstr : pl_fstr (en_plat en2) = pl_fstr (en_plat en1);
  er_links : pl_links (en_plat en2) = pl_links (en_plat en1);
  er_helpers : locals_good (rg_helpers (en_reg en1));
  er_link : forall h, rg_link (en_reg en1) = Some h -> good h;
  er_missing : forall h, rg_missing (en_reg en1) = Some h -> good h;
  er_block : forall h, rg_block_missing (en_reg en1) = Some h -> good h;
  er_write : forall o o' s, RO o o' -> en_write en2 o' s = en_write en1 o s /\ RO (o ++ [s]) (o' ++ [s]) }.
Hypothesis ER : env_rel.
Hypothesis Hnode : forall src n tr, mrel eq (k_node K1 en1 src n tr) (k_node K2 en2 src n tr).
Hypothesis Hcall : forall src c, mrel eq (k_call K1 en1 src c) (k_call K2 en2 src c).
Hypothesis Hstmt : forall src c, mrel eq (k_stmt K1 en1 src c) (k_stmt K2 en2 src c).
Hypothesis Hbuffer : forall t, mrel eq (buffer K1 en1 t) (buffer K2 en2 t).
Hypothesis Honce : forall f c d, mrel eq (once_ K1 en1 f c d) (once_ K2 en2 f c d).
Hypothesis Hhash : forall src c, mrel (fun a b => fst a = fst b /\ RM (snd a) (snd b)) (hash K1 en1 src c) (hash K2 en2 src c).

Lemma rel_emit s : mrel eq (emit en1 s) (emit en2 s).
Proof.
  intros s1 s2 (o & -> & Ho & Hl). unfold emit. cbn [up_out r_out]. destruct (er_write ER _ _ s Ho) as [-> Ho'].
  destruct (en_write en1 (r_out s1) s); (split; [reflexivity|]); exists (o ++ [s]); (split; [reflexivity|]); (split; [exact Ho' | exact Hl]).
Qed.
Lemma rel_write s e : mrel eq (write_str en1 s e) (write_str en2 s e).
Proof.
  unfold write_str. mget. rewrite (er_reg ER).
  destruct (if ts_end (r_trim s1) then _ else _); [apply mrel_ret; reflexivity | apply rel_emit].
Qed.
Lemma rel_lookup src p : mrel eq (mlookup en1 src p) (mlookup en2 src p).
Proof.
  unfold mlookup. rewrite (er_root ER). mget. apply mrel_need.
Qed.
Lemma rel_evaluate s : mrel eq (evaluate en1 s) (evaluate en2 s).
Proof.
  unfold evaluate. rewrite (er_penv ER). destruct (path_from_str _ s) as [[p|] fs|e fs|p|]; [apply rel_lookup | apply mrel_ret; reflexivity | apply mrel_fail | apply mrel_panic |].
  intros s1 s2 _. exact I.
Qed.
Lemma rel_iter src (f1 f2 : node -> trim_state -> bool -> bool -> M unit) ns :
  (forall n tr a b, In n ns -> mrel eq (f1 n tr a b) (f2 n tr a b)) ->
  forall prev hint, mrel eq (iter_nodes src f1 prev hint ns) (iter_nodes src f2 prev hint ns).
Proof.
  induction ns as [|n ns IH]; intros Hf prev hint; [apply mrel_ret; reflexivity|]. cbn [iter_nodes].
  destruct (match prev with Some b => (b, hint) | None => _ end) as [start hint'].
  apply mrel_bind_eq.
  { destruct ns; [apply mrel_ret; reflexivity|]. apply mrel_bind_eq; [apply mrel_need | intros; apply mrel_ret; reflexivity]. }
  intros stop. apply mrel_bind_eq; [apply mrel_need|]. intros hn. apply mrel_bind_eq; [apply Hf; left; reflexivity|].
  intros _. apply IH. intros. apply Hf. right. assumption.
Qed.
Lemma rel_render t : mrel eq (render_ K1 en1 t) (render_ K2 en2 t).
Proof. unfold render_. apply rel_iter. intros. apply Hnode. Qed.
Lemma rel_template t : mrel eq (template_ K1 en1 t) (template_ K2 en2 t).
Proof.
  unfold template_. cbv zeta. mget. apply mrel_bind_eq.
  - apply rel_iter. intros n tr a b _. apply mrel_bind_eq.
    { destruct a; [|apply mrel_ret; reflexivity]. apply mrel_bind_eq; [apply mrel_need | intros; apply mrel_ret; reflexivity]. }
    intros tr1. apply mrel_bind_eq; [|intros; apply Hnode].
    destruct b; [|apply mrel_ret; reflexivity]. destruct (tp_node t); try (apply mrel_ret; reflexivity).
    apply mrel_bind_eq; [apply mrel_need | intros; apply mrel_ret; reflexivity].
  - intros _. apply mrel_bind_eq.
    + destruct (children (tp_node t)); [apply mrel_ret; reflexivity|]. destruct (tp_node t); try (apply mrel_ret; reflexivity).
      apply mrel_bind_eq; [apply mrel_need | intros; apply mrel_ret; reflexivity].
    + intros h'. rupd.
Qed.
Lemma rel_inverse_go src cs : forall alt, mrel eq (inverse_go K1 en1 src alt cs) (inverse_go K2 en2 src alt cs).
Proof.
  induction cs as [|n cs IH]; intros alt; [apply mrel_ret; reflexivity|]. destruct n; cbn [inverse_go]; try apply IH.
  destruct (call_is_empty (b_call b)); [apply IH|]. apply mrel_bind_eq; [apply Hcall|]. intros [v|]; [|apply IH].
  destruct (is_truthy v); [apply mrel_ret; reflexivity | apply IH].
Qed.
Lemma rel_inverse t : mrel eq (inverse K1 en1 t) (inverse K2 en2 t).
Proof.
  unfold inverse. destruct (tp_node t); try (apply mrel_ret; reflexivity).
  apply mrel_bind_eq; [apply rel_inverse_go | intros; apply mrel_ret; reflexivity].
Qed.
Lemma locals_get n l h : locals_good l -> assoc n l = Some h -> good h.
Proof. intros Hl. induction Hl as [|[k v] l Hv Hl IH]; simpl; [discriminate|]. destruct (streq n k); [intros H; injection H as <-; exact Hv | exact IH]. Qed.
Lemma locals_set name h l : good h -> locals_good l -> locals_good (assoc_set name h l).
Proof.
  intros Hh Hl. induction Hl as [|[k v] l Hv Hl IH]; simpl; [constructor; [exact Hh | constructor]|].
  destruct (streq name k); constructor; assumption.
Qed.
Lemma locals_del name l : locals_good l -> locals_good (assoc_del name l).
Proof.
  intros Hl. induction Hl as [|[k v] l Hv Hl IH]; simpl; [constructor|]. destruct (streq name k); [exact IH | constructor; assumption].
Qed.
Lemma rel_run p : hall Q p -> mrel eq (run K1 en1 p) (run K2 en2 p).
Proof.
  induction p; intros Hq; cbn [run hall] in *.
  - apply mrel_ret; reflexivity.
  - apply mrel_fail.
  - apply mrel_panic.
  - apply mrel_catch; [apply rel_template | auto].
  - apply mrel_catch; [apply rel_render | auto].
  - apply mrel_catch; [apply Hbuffer | auto].
  - apply mrel_catch; [apply Honce | auto].
  - apply mrel_catch; [apply rel_inverse | auto].
  - apply mrel_catch; [apply rel_write | auto].
  - apply mrel_catch; [apply rel_emit | auto].
  - apply mrel_bind_eq; [rupd | auto].
  - mget. destruct (r_scopes s1) as [|s ss]; [auto|]. apply mrel_bind_eq; [rupd | auto].
  - apply mrel_bind_eq; [|auto]. apply mrel_upd.
    + intros s o. destruct s as [? ? [|x ss] ? ? ? ? ? ?]; reflexivity.
    + intros s. destruct s as [? ? [|x ss] ? ? ? ? ? ?]; reflexivity.
    + intros s Hl. destruct s as [? ? [|x ss] ? ? ? ? ? ?]; exact Hl.
  - apply mrel_catch; [apply rel_evaluate | auto].
  - destruct Hq as (H1 & H2 & H3). apply mrel_bind_eq; [|auto]. apply mrel_upd.
    + intros [] o; reflexivity.
    + intros []; reflexivity.
    + intros s [Hl Hi]. split; [apply locals_set; [split; assumption | exact Hl] | exact Hi].
  - apply mrel_bind_eq; [|auto]. apply mrel_upd.
    + intros [] o; reflexivity.
    + intros []; reflexivity.
    + intros s [Hl Hi]. split; [apply locals_del, Hl | exact Hi].
  - rewrite (er_reg ER). auto.
  - rewrite (er_root ER). auto.
  - apply mrel_get. intros s1 s2 Hs. pose proof Hs as (o & -> & Ho & Hl). unfold current_name. rewrite (er_name ER). cbn [up_out r_names]. apply H; [apply Hq | exact Hs].
  - rewrite (er_reg ER). auto.
  - auto.
Qed.
Lemma rel_eval_param src p : mrel eq (eval_param K1 en1 src p) (eval_param K2 en2 src p).
Proof.
  unfold eval_param. destruct p.
  - apply mrel_bind_eq; [apply rel_lookup|]. intros [v|]; [apply mrel_ret; reflexivity|].
    apply mrel_bind_eq; [apply mrel_need | intros; apply mrel_ret; reflexivity].
  - apply mrel_ret; reflexivity.
  - apply mrel_bind_eq; [apply Hstmt|]. intros [v|]; [apply mrel_ret; reflexivity|].
    apply mrel_bind_eq; [apply mrel_need | intros; apply mrel_ret; reflexivity].
Qed.
Lemma rel_arguments src ps : forall i, mrel eq (arguments K1 en1 src i ps) (arguments K2 en2 src i ps).
Proof.
  induction ps as [|p ps IH]; intros i; [apply mrel_ret; reflexivity|]. cbn [arguments].
  apply mrel_bind_eq; [apply rel_eval_param|]. intros r. apply mrel_bind_eq; [apply IH | intros; apply mrel_ret; reflexivity].
Qed.
Lemma rel_hash_go src ps : forall acc, mrel eq (hash_go K1 en1 src ps acc) (hash_go K2 en2 src ps acc).
Proof.
  induction ps as [|[k p] ps IH]; intros acc; [apply mrel_ret; reflexivity|]. cbn [hash_go].
  apply mrel_bind_eq; [apply rel_eval_param|]. intros r. apply mrel_bind_eq; [apply IH | intros; apply mrel_ret; reflexivity].
Qed.
Lemma rel_pop : mrel eq (upd pop_stack) (upd pop_stack).
Proof. apply mrel_upd; [intros [] ?; reflexivity | intros []; reflexivity|]. intros s [H1 H2]. split; [exact H1 | apply SI_pop, H2]. Qed.
Lemma mrel_push {B} (RB : B -> B -> Prop) x (m1 m2 : M B) : mrel RB m1 m2 -> forall s1 s2, RS s1 s2 ->
  match x with SPartial _ => existsb (site_eq x) (r_stack s1) = false | _ => count_site x (r_stack s1) < stack_max end ->
  rel RB ((upd (fun st => up_stack (x :: r_stack st) st) ;; m1) s1) ((upd (fun st => up_stack (x :: r_stack st) st) ;; m2) s2).
Proof.
  intros H s1 s2 (o & -> & Ho & Hl & Hi) Hc. refine (H (up_stack (x :: r_stack s1) s1) (up_stack (x :: r_stack s1) (up_out o s1)) _).
  exists o. split; [reflexivity|]. split; [exact Ho|]. split; [exact Hl|]. apply SI_push; [exact Hi | exact Hc].
Qed.
Lemma rel_invoke src name tg c content text prop : match tg with ByRef h => good h | ByName _ => True end ->
  mrel eq (invoke K1 en1 src name tg c content text prop) (invoke K2 en2 src name tg c content text prop).
Proof.
  intros Htg. unfold invoke. cbv zeta.
  set (s := match content with Some _ => SBlock name | None => SHelper name end).
  apply mrel_get. intros s1 s2 Hs. pose proof Hs as (o & -> & Ho & Hl & Hi). cbn [up_out r_stack].
  destruct (Nat.leb_spec stack_max (count_site s (r_stack s1))) as [Hc|Hc]; [apply mrel_fail, Hs|].
  assert (Hp : match s with SPartial _ => existsb (site_eq s) (r_stack s1) = false | _ => count_site s (r_stack s1) < stack_max end)
    by (subst s; destruct content; exact Hc).
  refine (mrel_push eq s _ _ _ s1 (up_out o s1) Hs Hp). clear o Ho Hs Hl Hi Hc Hp s1.
  apply mrel_bind_eq; [apply rel_arguments|]. intros a.
  eapply mrel_bind; [apply Hhash|]. intros h h' [Hh Hm].
  assert (R : forall f, good f -> mrel eq (run K1 en1 (f (mkHctx c src name (fst a) (fst h) text prop (snd a ++ snd h)) content))
                                         (run K2 en2 (f (mkHctx c src name (fst a) (fst h') text prop (snd a ++ snd h')) content))).
  { intros f [Hq Hf]. rewrite (Q_blind f Hq _ (mkHctx c src name (fst a) (fst h') text prop (snd a ++ snd h'))).
    - apply rel_run, Hf.
    - repeat split; try reflexivity; [exact Hh | cbn [hc_missing]; apply RM_app, Hm]. }
  mget. rewrite (er_reg ER). apply mrel_bind_eq; [|intros v; apply mrel_bind_eq; [apply rel_pop | intros; apply mrel_ret; reflexivity]].
  destruct tg as [n|f]; [|apply R, Htg].
  destruct (assoc n (r_local s1)) as [f|] eqn:E1; [apply R, (locals_get _ _ _ (proj1 Hl) E1)|].
  destruct (assoc n (rg_helpers (en_reg en1))) as [f|] eqn:E2; [|apply mrel_ret; reflexivity].
  apply R, (locals_get _ _ _ (er_helpers ER) E2).
Qed.
Lemma has_helper_out name s o : has_helper en2 name (up_out o s) = has_helper en1 name s.
Proof. unfold has_helper. rewrite (er_reg ER). destruct s. reflexivity. Qed.
Lemma mrel_has {B} (RB : B -> B -> Prop) name (a1 a2 b1 b2 : M B) : mrel RB a1 a2 -> mrel RB b1 b2 ->
  mrel RB (let* st := get in if has_helper en1 name st then a1 else b1) (let* st := get in if has_helper en2 name st then a2 else b2).
Proof.
  intros Ha Hb. apply mrel_get. intros s1 s2 Hs. pose proof Hs as (o & -> & Ho & Hl). rewrite has_helper_out.
  destruct (has_helper en1 name s1); [apply Ha, Hs | apply Hb, Hs].
Qed.
Lemma rel_resolve src p : mrel eq (resolve en1 src p) (resolve en2 src p).
Proof.
  unfold resolve. apply mrel_bind_eq; [apply rel_lookup|]. intros [v|]; [apply mrel_ret; reflexivity|]. rewrite (er_reg ER), (er_name ER).
  destruct (rg_strict (en_reg en1)); [|apply mrel_ret; reflexivity]. apply mrel_bind_eq; [apply mrel_need | intros; apply mrel_fail].
Qed.
Lemma rel_call src c : mrel eq (call_ K1 en1 src c) (call_ K2 en2 src c).
Proof.
  unfold call_. destruct (c_target c); [|apply Hcall]. destruct (pa_explicit p); [apply rel_lookup|].
  destruct (path_is_simple p); [|apply rel_resolve]. apply mrel_bind_eq; [apply mrel_need|]. intros name.
  apply mrel_has; [apply rel_invoke; exact I|]. apply mrel_bind_eq; [apply rel_lookup|]. intros [v|]; [apply mrel_ret; reflexivity|].
  rewrite (er_reg ER), (er_name ER). destruct (rg_missing (en_reg en1)) as [h|] eqn:E; [apply rel_invoke, (er_missing ER), E|].
  destruct (rg_strict (en_reg en1)); [apply mrel_fail | apply mrel_ret; reflexivity].
Qed.
Lemma rel_partial_name src c : mrel eq (get_partial_name K1 en1 src c) (get_partial_name K2 en2 src c).
Proof.
  unfold get_partial_name. destruct (c_target c).
  - apply mrel_bind_eq; [apply mrel_need|]. intros s. destruct (streq s partial_block); [apply mrel_ret; reflexivity|].
    destruct (path_is_simple p); [apply mrel_ret; reflexivity | apply mrel_fail].
  - apply mrel_bind_eq; [apply Hstmt|]. intros v. rewrite (er_fstr ER). apply mrel_ret; reflexivity.
Qed.
Lemma rel_partial src c pb : mrel eq (render_partial K1 en1 src c pb) (render_partial K2 en2 src c pb).
Proof.
  unfold render_partial. apply mrel_bind_eq; [apply rel_partial_name|]. intros name.
  apply mrel_get. intros s1 s2 Hs. pose proof Hs as (o & -> & Ho & Hl & Hi). cbn [up_out r_stack].
  destruct (existsb (site_eq (SPartial name)) (r_stack s1)) eqn:Hc; [apply mrel_fail, Hs|].
  refine (mrel_push eq (SPartial name) _ _ _ s1 (up_out o s1) Hs Hc). clear o Ho Hs Hl Hi Hc s1.
  apply mrel_bind_eq.
  { destruct pb; [rupd | apply mrel_ret; reflexivity]. }
  intros _.
  mget. apply mrel_bind_eq.
  { destruct (assoc name (r_partials _)); [apply mrel_ret; reflexivity|]. rewrite (er_reg ER). destruct (assoc name (rg_templates (en_reg en1))); [|apply mrel_fail].
    apply mrel_bind_eq; [rupd | intros; apply mrel_ret; reflexivity]. }
  intros t. eapply mrel_bind; [apply Hhash|]. intros h h' [Hh _]. rewrite <- Hh. apply mrel_bind_eq.
  { destruct (c_args c); [apply mrel_ret; reflexivity|]. apply mrel_bind_eq; [apply rel_arguments|]. intros a.
    destruct (fst a); apply mrel_ret; reflexivity. }
  intros sc. apply mrel_bind_eq; [rupd|]. intros _.
  mget. apply mrel_bind_eq; [apply rel_iter; intros; apply Hnode|]. intros _.
  apply mrel_bind_eq; [rupd|]. intros _. apply mrel_bind_eq; [rupd|]. intros _. apply rel_pop.
Qed.
Lemma rel_stmt src c : mrel eq (stmt_ K1 en1 src c) (stmt_ K2 en2 src c).
Proof.
  unfold stmt_. destruct (c_partial c); [|apply rel_call]. apply mrel_bind_eq; [apply rel_partial | intros; apply mrel_ret; reflexivity].
Qed.
Lemma rel_write_u s e : mrel eq (write_str en1 s e ;; ret tt) (write_str en2 s e ;; ret tt).
Proof. apply mrel_bind_eq; [apply rel_write | intros; apply mrel_ret; reflexivity]. Qed.
Lemma rel_block_missing t c text raw : mrel eq (block_missing K1 en1 t c text raw) (block_missing K2 en2 t c text raw).
Proof.
  unfold block_missing. cbv zeta. destruct raw; [destruct text; [apply rel_write_u | apply mrel_ret; reflexivity]|].
  destruct (c_target c); [|apply mrel_ret; reflexivity]. apply mrel_bind_eq; [apply rel_lookup|]. rewrite (er_reg ER). intros [v|].
  - destruct (rg_block_missing (en_reg en1)) as [h|] eqn:E; [|apply rel_template]. apply mrel_bind_eq; [apply mrel_need|]. intros name.
    apply mrel_bind_eq; [apply rel_invoke, (er_block ER), E | intros; apply mrel_ret; reflexivity].
  - destruct (rg_missing (en_reg en1)) as [h|] eqn:E.
    + apply mrel_bind_eq; [apply rel_invoke, (er_missing ER), E | intros; apply mrel_ret; reflexivity].
    + destruct (rg_strict (en_reg en1)); [|apply mrel_ret; reflexivity]. apply mrel_bind_eq; [apply mrel_need | intros; apply mrel_fail].
Qed.
Lemma rel_raw_text src b : mrel eq (raw_text src b) (raw_text src b).
Proof.
  unfold raw_text. apply mrel_bind_eq; [destruct (b_nodes b); [apply mrel_ret; reflexivity | apply mrel_need]|].
  intros s. apply mrel_bind_eq; [apply mrel_need|]. intros hint. apply mrel_bind_eq; [apply mrel_need|]. intros h. cbv zeta.
  apply mrel_bind_eq; [rupd | intros; apply mrel_ret; reflexivity].
Qed.
Lemma rel_block src b : mrel eq (block_ K1 en1 src b) (block_ K2 en2 src b).
Proof.
  unfold block_. cbv zeta. destruct (c_partial (b_call b)); [apply rel_partial|]. destruct (c_target (b_call b)); [|apply mrel_fail].
  destruct (path_is_simple p).
  - apply mrel_bind_eq.
    { destruct (b_raw b); [|apply mrel_ret; reflexivity]. apply mrel_bind_eq; [apply rel_raw_text | intros; apply mrel_ret; reflexivity]. }
    intros text. apply mrel_bind_eq; [apply mrel_need|]. intros name. apply mrel_has; [|apply rel_block_missing].
    apply mrel_bind_eq; [apply rel_invoke; exact I | intros; apply mrel_ret; reflexivity].
  - apply mrel_bind_eq; [apply mrel_need | intros; apply mrel_fail].
Qed.
Lemma rel_link_ src h l : good h -> mrel eq (link_ K1 en1 src h l) (link_ K2 en2 src h l).
Proof.
  intros Hh. unfold link_. do 3 (apply mrel_bind_eq; [apply mrel_need|]; intros ?). apply mrel_bind_eq; [apply rel_invoke, Hh | intros; apply mrel_ret; reflexivity].
Qed.
Lemma rel_node_body src n : mrel eq (node_body K1 en1 src n) (node_body K2 en2 src n).
Proof.
  unfold node_body. destruct n; try (apply mrel_ret; reflexivity).
  - apply mrel_bind_eq; [apply mrel_need|]. intros s. apply rel_write_u.
  - apply mrel_bind_eq; [apply Hstmt|]. intros [v|]; [|apply mrel_ret; reflexivity]. apply mrel_bind_eq; [apply mrel_need|]. intros e.
    rewrite (er_fstr ER). apply rel_write_u.
  - apply rel_block.
  - apply mrel_bind_eq; [apply mrel_need|]. intros s. apply mrel_bind_eq; [apply mrel_need|]. intros s'. apply rel_write_u.
  - apply mrel_bind_eq; [apply mrel_need|]. intros e. destruct e; [apply mrel_bind_eq; [apply mrel_need|]; intros s; apply rel_write_u|].
    rewrite (er_links ER), (er_reg ER).
    assert (W : mrel eq (let* s := need (link_str src l) in write_str en1 s false;; ret tt) (let* s := need (link_str src l) in write_str en2 s false;; ret tt))
      by (apply mrel_bind_eq; [apply mrel_need|]; intros s; apply rel_write_u).
    destruct (pl_links (en_plat en1)); [|exact W]. destruct (rg_link (en_reg en1)) as [h|] eqn:E; [apply rel_link_, (er_link ER), E | exact W].
Qed.
Lemma rel_node src n tr : mrel eq (node_ K1 en1 src n tr) (node_ K2 en2 src n tr).
Proof.
  unfold node_. apply mrel_bind_eq; [rupd|]. intros _. apply mrel_bind_eq; [apply mrel_need|]. intros h. apply mrel_bind_eq; [rupd|]. intros _.
  apply mrel_bind_eq; [|intros; apply rel_node_body]. apply mrel_upd.
  - intros [? ? ? ? ? [[x y]|] ? ? ?] o; [destruct y|]; reflexivity.
  - intros [? ? ? ? ? [[x y]|] ? ? ?]; [destruct y|]; reflexivity.
  - intros [? ? ? ? ? [[x y]|] ? ? ?] Hl; [destruct y|]; exact Hl.
Qed.
End Rel.

(** no invariant of the call stack *)
Definition It (l : list site) : Prop := True.
Lemma It_push : forall x l, It l ->
  match x with SPartial _ => existsb (site_eq x) l = false | _ => count_site x l < stack_max end -> It (x :: l).
Proof. intros; exact I. Qed.
Lemma It_pop : forall l, It l -> It (tl l).
Proof. intros; exact I. Qed.
