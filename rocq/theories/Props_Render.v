(** * Props_Render: scopes, termination, recursion limits, output and registry (C38-C40, C47-C50, C52). *)
From Coq Require Import Lia String Permutation.
From Verif Require Import Str Json Ast ErrInfo Parser Render Helpers Registry Tests Spec_Helpers StrFacts
  Spec_Render RelFacts FuelFacts UnaryFacts StateFacts OutFacts TermFacts HashFacts LimitFacts CycleFacts BuiltinFacts.
Open Scope nat_scope. Open Scope list_scope.

(** ** C38: the scope stack is balanced *)
Theorem C38_scopes_restored_partial : forall fuel en st s,
  all_helpers (balanced (Some 0)) (en_reg en) -> all_locals (balanced (Some 0)) st ->
  (exists src n tr, node_ (tie fuel) en src n tr st = ROk tt s)
  \/ (exists t, render_ (tie fuel) en t st = ROk tt s)
  \/ (exists t, template_ (tie fuel) en t st = ROk tt s)
  \/ (exists src c v, call_ (tie fuel) en src c st = ROk v s) ->
  r_scopes s = r_scopes st /\ r_stack s = r_stack st.
Proof.
  intros fuel en st s Hr Hl H. pose proof (bal_tie en fuel Hr) as K. pose proof (bal_tie en (S fuel) Hr) as (Kn & Kc & _).
  destruct H as [(src & n & tr & H)|[(t & H)|[(t & H)|(src & c & v & H)]]].
  - specialize (Kn src n tr st Hl). cbn [tie k_node] in Kn. fold tie in Kn. rewrite H in Kn. exact (proj2 Kn).
  - destruct K as (A & B & C). pose proof (spec_render _ _ _ bal_frame (tie fuel) en A t st Hl) as X. rewrite H in X. exact (proj2 X).
  - destruct K as (A & B & C). pose proof (spec_template _ _ _ bal_frame (tie fuel) en A t st Hl) as X. rewrite H in X. exact (proj2 X).
  - specialize (Kc src c st Hl). cbn [tie k_call] in Kc. rewrite H in Kc. exact (proj2 Kc).
Qed.
Theorem C38_builtins_balanced : forall pl, all_helpers (balanced (Some 0)) (registry_new pl).
Proof. exact builtins_balanced. Qed.
(** the restriction in [balanced] on helpers that carry on after a failed inner render is needed: the scope
    of the failed inner block stays on the stack *)
Definition catching : helper := fun _ t => match t with Some t => HTemplate t (fun _ => HRet None) | None => HRet None end.
Theorem C38_caught_error_refuted : exists r src out,
  rg_helpers r = assoc_set (lit "try") catching (rg_helpers reg0)
  /\ once r src (JObj [(lit "a", JObj [(lit "b", JStr (lit "inner"))]); (lit "b", JStr (lit "outer"))]) = AOk out
  /\ src = lit "{{#try}}{{#with a}}{{eq 1}}{{/with}}{{/try}}{{b}}" /\ out = lit "inner".
Proof. exists (helper_insert (lit "try") catching reg0). eexists _, _. split; [reflexivity|]. repeat split. vm_compute. reflexivity. Qed.

(** ** C39: rendering terminates *)
Lemma registers_more U V p : incl U V -> registers_in U p -> registers_in V p.
Proof. intros HI. induction p; cbn; intros X; auto. destruct X as (A & B & C). repeat split; auto. Qed.
Lemma all_registers_more U V r : incl U V -> all_helpers (registers_in U) r -> all_helpers (registers_in V) r.
Proof.
  intros HI (A & B & C & D). split; [|split; [|split]].
  - intros n h Hn c t. exact (registers_more _ _ _ HI (A n h Hn c t)).
  - intros h Hh c t. exact (registers_more _ _ _ HI (B h Hh c t)).
  - intros h Hh c t. exact (registers_more _ _ _ HI (C h Hh c t)).
  - intros h Hh c t. exact (registers_more _ _ _ HI (D h Hh c t)).
Qed.
Lemma term_any pl r U name data w t stack : all_helpers (registers_in U) r ->
  exists fuel, render_ (tie fuel) (mkEnv pl r name data w) t (r_new stack) <> RFuel.
Proof.
  intros H. set (V := helper_missing_name :: block_helper_missing_name :: link_name :: map fst (rg_helpers r) ++ U).
  apply (render_ends V (partial_block :: map fst (rg_templates r)) pl r).
  - intros n h Hn. do 3 right. apply in_or_app. left. apply in_map_iff. exists (n, h). auto.
  - left. reflexivity.
  - right. left. reflexivity.
  - right. right. left. reflexivity.
  - intros n x Hn. right. apply in_map_iff. exists (n, x). auto.
  - left. reflexivity.
  - apply (all_registers_more U); [|exact H]. intros x Hx. do 3 right. apply in_or_app. right. exact Hx.
  - split; reflexivity.
  - split; [intros n h []|intros n x []].
Qed.
(** [U] is any finite list that contains the names under which helpers register local helpers *)
Theorem C39_rendering_terminates : forall pl r U, all_helpers (registers_in U) r ->
  forall name t data w stack, exists fuel, forall more, fuel <= more ->
    template_render more pl r name t data w stack = template_render fuel pl r name t data w stack
    /\ fst (template_render more pl r name t data w stack) <> AFuel.
Proof.
  intros pl r U H name t data w stack. destruct (term_any pl r U name data w t stack H) as [fuel Hf]. exists fuel. intros more Hm.
  unfold template_render, render_template_go. rewrite (render_mono fuel more _ _ _ Hm Hf). split; [reflexivity|].
  destruct (render_ (tie fuel) _ _ _); try discriminate. contradiction.
Qed.
Theorem C39_entry_points_terminate : forall pl r U, all_helpers (registers_in U) r ->
  forall name src data, exists fuel, forall more, fuel <= more ->
    registry_render more pl r name data <> AFuel /\ registry_once more pl r name src data <> AFuel
    /\ registry_render more pl r name data = registry_render fuel pl r name data
    /\ registry_once more pl r name src data = registry_once fuel pl r name src data.
Proof.
  intros pl r U H name src data.
  assert (A : exists f1, forall more, f1 <= more -> registry_render more pl r name data <> AFuel /\ registry_render more pl r name data = registry_render f1 pl r name data).
  { unfold registry_render, registry_render_to_write. destruct (assoc name (rg_templates r)) as [t|]; [|exists 0; intros; split; [discriminate | reflexivity]].
    destruct (C39_rendering_terminates pl r U H name (te_tpl t) data string_writer []) as [f1 H1]. exists f1. intros more Hm.
    destruct (H1 more Hm) as [E N]. unfold to_str. rewrite E in N |- *. destruct (fst (template_render f1 _ _ _ _ _ _ _)); split; try discriminate; try reflexivity; congruence. }
  assert (B : exists f1, forall more, f1 <= more -> registry_once more pl r name src data <> AFuel /\ registry_once more pl r name src data = registry_once f1 pl r name src data).
  { unfold registry_once. destruct (template_compile pl (mkOpts name 0 0) src) as [t|e|p|] eqn:Ec.
    - destruct (C39_rendering_terminates pl r U H name (te_tpl t) data string_writer []) as [f1 H1]. exists f1. intros more Hm.
      destruct (H1 more Hm) as [E N]. unfold to_str. rewrite E in N |- *. destruct (fst (template_render f1 _ _ _ _ _ _ _)); split; try discriminate; try reflexivity; congruence.
    - exists 0; intros; split; [discriminate | reflexivity].
    - exists 0; intros; split; [discriminate | reflexivity].
    - exfalso. unfold template_compile in Ec. pose proof (DocProps.compile_total (pl_penv pl) (mkOpts name 0 0) src) as T. destruct (compile _ _ _); try discriminate Ec. apply T. reflexivity. }
  destruct A as [f1 A], B as [f2 B]. exists (f1 + f2). intros more Hm.
  destruct (A more ltac:(lia)) as [A1 A2], (B more ltac:(lia)) as [B1 B2], (A (f1 + f2) ltac:(lia)) as [_ A3], (B (f1 + f2) ltac:(lia)) as [_ B3].
  split; [exact A1|]. split; [exact B1|]. split; congruence.
Qed.
Example C39_nonvacuous : all_helpers (registers_in []) reg0
  /\ registry_render 200 pl0 (ins (lit "a") (lit "x{{> b}}") (ins (lit "b") (lit "y{{> a}}") reg0)) (lit "a") JNull = AErr (XRender (EPartialCycle (lit "b"))).
Proof. split; [apply builtins_register_nothing | vm_compute; reflexivity]. Qed.

(** ** C40: recursion is cut off *)
(** the monitored renderer, which panics as soon as a node, call or statement is rendered (also inside a
    buffer or a nested [once]) while a helper is active more than 32 times or a partial twice, behaves
    exactly as the renderer: the monitor never fires *)
Theorem C40_limits_never_exceeded : forall fuel en t st,
  within_limits (r_stack st) = true -> render_ (tie_monitored fuel) en t st = render_ (tie fuel) en t st.
Proof. intros. apply render_monitored. assumption. Qed.
(** asking for a partial that is active fails, before anything is written *)
Theorem C40_active_partial_fails : forall K en src c p n pb st,
  c_target c = TPath p -> path_str src p = Some n -> path_is_simple p = true -> n <> partial_block ->
  In (SPartial n) (r_stack st) -> render_partial K en src c pb st = RErr (EPartialCycle n) st.
Proof.
  intros K en src c p n pb st Ht Hp Hs Hne Hin. unfold render_partial.
  assert (E : streq n partial_block = false) by (destruct (streq n partial_block) eqn:X; [apply streq_eq in X; contradiction | reflexivity]).
  assert (Hg : get_partial_name K en src c st = ROk n st).
  { unfold get_partial_name. rewrite Ht, Hp. cbn [need]. unfold bind, ret. rewrite E, Hs. reflexivity. }
  unfold bind at 1. rewrite Hg. unfold bind at 1, get.
  replace (existsb (site_eq (SPartial n)) (r_stack st)) with true; [reflexivity|]. symmetry. apply existsb_exists. exists (SPartial n). split; [exact Hin | apply streq_refl].
Qed.
(** partials that include each other in a cycle never render, whatever else their templates contain *)
Theorem C40_cyclic_partials_fail : forall en C fuel src c p n pb st, cyclic (en_reg en) C ->
  (forall k t, In (k, t) (r_partials st) -> k = partial_block) ->
  c_target c = TPath p -> path_str src p = Some n -> path_is_simple p = true -> In n C ->
  forall s, render_partial (tie fuel) en src c pb st <> ROk tt s.
Proof.
  intros en C fuel src c p n pb st HC Hi Ht Hp Hs Hn s E.
  apply (CycleFacts.partial_fails en C HC (S (CycleFacts.idle C (r_stack st))) fuel src c p n pb st); auto. rewrite E. exact I.
Qed.
Ltac in_list := repeat (first [left; reflexivity | right]).
(** three templates in a cycle, with other content around the inclusions *)
Definition cyc_reg : registry :=
  ins (lit "a") (lit "x {{> b}}") (ins (lit "b") (lit "{{#if true}}y{{/if}}{{> c k=1}}") (ins (lit "c") (lit "{{> a}}!") reg0)).
Example C40_cyclic_nonvacuous : cyclic cyc_reg [lit "a"; lit "b"; lit "c"]
  /\ registry_render 200 pl0 cyc_reg (lit "c") JNull = AErr (XRender (EPartialCycle (lit "a"))).
Proof.
  split; [|vm_compute; reflexivity]. split; [vm_compute; intros H; repeat (destruct H as [H|H]; [discriminate H|]); exact H|].
  intros n [<-|[<-|[<-|[]]]].
  - eexists _, _, (lit "b"). split; [vm_compute; reflexivity|]. split; [right; left; reflexivity|]. split; [|in_list].
    eexists _, _. split; [reflexivity|]. vm_compute. repeat split; reflexivity.
  - eexists _, _, (lit "c"). split; [vm_compute; reflexivity|]. split; [right; left; reflexivity|]. split; [|in_list].
    eexists _, _. split; [reflexivity|]. vm_compute. repeat split; reflexivity.
  - eexists _, _, (lit "a"). split; [vm_compute; reflexivity|]. split; [left; reflexivity|]. split; [|in_list].
    eexists _, _. split; [reflexivity|]. vm_compute. repeat split; reflexivity.
Qed.
(** no false alarm -- fails: 33 nested ifs contain no cycle and are rejected, 32 are fine *)
Definition nested (n : nat) : str := concat (repeat (lit "{{#if true}}") n) ++ lit "x" ++ concat (repeat (lit "{{/if}}") n).
Theorem C40_no_false_alarm_refuted :
  registry_once 400 pl0 reg0 (lit "t") (nested 33) JNull = AErr (XRender (EHelperCycle (lit "if")))
  /\ registry_once 400 pl0 reg0 (lit "t") (nested 32) JNull = AOk (lit "x").
Proof. split; vm_compute; reflexivity. Qed.

(** ** C47: output *)
Theorem C47_append_only : forall fuel en st,
  (forall t, match render_ (tie fuel) en t st with ROk _ s | RErr _ s => exists xs, r_out s = r_out st ++ xs | _ => True end)
  /\ (forall src n tr, match node_ (tie fuel) en src n tr st with ROk _ s | RErr _ s => exists xs, r_out s = r_out st ++ xs | _ => True end).
Proof.
  intros fuel en st. split.
  - intros t. destruct (grows_tie en fuel) as (A & B & C). pose proof (spec_render _ _ _ grows_frame (tie fuel) en A t st I) as X.
    destruct (render_ (tie fuel) en t st); simpl in X; try exact I; apply X.
  - intros src n tr. destruct (grows_tie en (S fuel)) as (A & _ & _). specialize (A src n tr st I). cbn [tie k_node] in A. fold tie in A.
    destruct (node_ (tie fuel) en src n tr st); simpl in A; try exact I; apply A.
Qed.
(** what happens, and what is added, does not depend on what was in the output before: with [p2] in place of
    [p1] (and a writer that answers as before) the same text is added and the same result returned *)
Theorem C47_independent_of_output : forall fuel en1 en2 t st p1 p2,
  en_plat en2 = en_plat en1 -> en_reg en2 = en_reg en1 -> en_name en2 = en_name en1 -> en_root en2 = en_root en1 ->
  (forall xs s, en_write en2 (p2 ++ xs) s = en_write en1 (p1 ++ xs) s) -> r_out st = p1 ->
  match render_ (tie fuel) en1 t st with
  | ROk _ s => exists xs, r_out s = p1 ++ xs /\ render_ (tie fuel) en2 t (up_out p2 st) = ROk tt (up_out (p2 ++ xs) s)
  | RErr e s => exists xs, r_out s = p1 ++ xs /\ render_ (tie fuel) en2 t (up_out p2 st) = RErr e (up_out (p2 ++ xs) s)
  | RPanic p => render_ (tie fuel) en2 t (up_out p2 st) = RPanic p
  | RFuel => render_ (tie fuel) en2 t (up_out p2 st) = RFuel
  end.
Proof.
  intros fuel en1 en2 t st p1 p2 H1 H2 H3 H4 H5 H6.
  assert (X : moved p1 p2 (render_ (tie fuel) en1 t st) (render_ (tie fuel) en2 t (up_out p2 st))).
  { apply both_ways; [| |exact H6]; apply shift_render; try congruence; auto. }
  unfold moved in X. destruct (render_ (tie fuel) en1 t st) as [[] s|e s|p|]; exact X.
Qed.
(** a failed render has completed all nodes before some node and then failed in that node; what is in the
    output is what those nodes wrote followed by what the failing node wrote *)
Theorem C47_failed_render_prefix : forall fuel en t st e s, render_ (tie fuel) en t st = RErr e s ->
  exists pre n post mid tr, children (tp_node t) = pre ++ n :: post
    /\ rendered (fun x tr => k_node (tie fuel) en (tp_src t) x tr) pre st mid
    /\ k_node (tie fuel) en (tp_src t) n tr mid = RErr e s
    /\ exists xs ys, r_out mid = r_out st ++ xs /\ r_out s = r_out mid ++ ys.
Proof.
  intros fuel en t st e s H. unfold render_ in H.
  assert (X : forall ns prev hint st, iter_nodes (tp_src t) (fun n tr _ _ => k_node (tie fuel) en (tp_src t) n tr) prev hint ns st = RErr e s ->
    exists pre n post mid tr, ns = pre ++ n :: post /\ rendered (fun x tr => k_node (tie fuel) en (tp_src t) x tr) pre st mid
      /\ k_node (tie fuel) en (tp_src t) n tr mid = RErr e s).
  { induction ns as [|n ns IH]; intros prev hint st0; [discriminate|]. cbn [iter_nodes].
    destruct (match prev with Some b => (b, hint) | None => _ end) as [start hint'].
    assert (E : exists o, (match ns with [] => ret false | m :: _ => let* h := need (node_trim (tp_src t) m) in ret (th_before h) end) = need o).
    { destruct ns as [|m ns']; [exists (Some false); reflexivity|]. destruct (node_trim (tp_src t) m) as [h|]; [exists (Some (th_before h)) | exists None]; reflexivity. }
    destruct E as [o ->]. destruct o as [stop|]; [|discriminate]. destruct (node_trim (tp_src t) n) as [hn|]; [|discriminate].
    cbn [need]. rewrite !bind_ret. unfold bind. destruct (k_node (tie fuel) en (tp_src t) n (mkTrim start stop) st0) as [[] s1|e1 s1|p|] eqn:En; try discriminate.
    - intros H0. apply IH in H0. destruct H0 as (pre & n' & post & mid & tr & -> & R & F). exists (n :: pre), n', post, mid, tr. split; [reflexivity|]. split; [|exact F].
      eapply rendered_cons; eassumption.
    - intros H0. injection H0 as -> ->. exists [], n, ns, st0, (mkTrim start stop). split; [reflexivity|]. split; [constructor | exact En]. }
  destruct (X _ _ _ _ H) as (pre & n & post & mid & tr & Hc & R & F). exists pre, n, post, mid, tr. repeat (split; [assumption|]).
  destruct (grows_tie en fuel) as (A & _ & _).
  assert (G1 : exists xs, r_out mid = r_out st ++ xs).
  { clear - R A. induction R as [st|n ns tr st s1 s2 H R IH]; [exists []; rewrite app_nil_r; reflexivity|].
    specialize (A (tp_src t) n tr st I). rewrite H in A. destruct A as [_ [x Hx]], IH as [y Hy]. exists (x ++ y). rewrite Hy, Hx, app_assoc. reflexivity. }
  specialize (A (tp_src t) n tr mid I). rewrite F in A. destruct A as [_ [y Hy]], G1 as [x Hx]. exists x, y. auto.
Qed.
Example C47_nonvacuous : exists e s, render_ (tie 50) (mkEnv pl0 reg0 (lit "t") JNull string_writer)
    (mkTpl (lit "a{{#if true}}b{{eq 1}}c{{/if}}d") (match compile pe0 (mkOpts (lit "t") 0 0) (lit "a{{#if true}}b{{eq 1}}c{{/if}}d") with POk n _ => n | _ => NDoc [] end)) (r_new []) = RErr e s
  /\ r_out s = [lit "a"; lit "b"].
Proof. eexists _, _. vm_compute. split; reflexivity. Qed.

(** ** C48: I/O errors *)
(** success: the writer accepted every piece; an I/O error: it accepted every piece but the last, answered
    the last with that error, and nothing was written after it *)
Theorem C48_io_errors_stop : forall fuel en t st,
  all_helpers passes_io (en_reg en) -> all_locals passes_io st ->
  match render_ (tie fuel) en t st with
  | ROk _ s => exists xs, r_out s = r_out st ++ xs /\ accepts en (r_out st) xs
  | RErr e s => exists xs, r_out s = r_out st ++ xs
                  /\ (accepts en (r_out st) xs \/ exists k, e = EIo k /\ refuses_last en (r_out st) xs k)
  | _ => True
  end.
Proof.
  intros fuel en t st Hr Hl. destruct (io_tie en fuel Hr) as (A & B & C). pose proof (spec_render _ _ _ (io_frame en) (tie fuel) en A t st Hl) as X.
  destruct (render_ (tie fuel) en t st); simpl in X; try exact I; apply X.
Qed.
Theorem C48_builtins_pass_io : forall pl, all_helpers passes_io (registry_new pl).
Proof. exact builtins_pass_io. Qed.
Definition third_fails : list str -> str -> wres := fun out s => if length out =? 2 then WErr 7 else WOk (blen s).
Example C48_nonvacuous : registry_render_to_write 100 pl0 (ins (lit "a") (lit "x{{#each l}}{{this}}{{/each}}y") reg0) (lit "a")
    (JObj [(lit "l", JArr [JStr (lit "p"); JStr (lit "q"); JStr (lit "r")])]) third_fails
  = (AErr (XRender (EIo 7)), [lit "x"; lit "p"; lit "q"]).
Proof. vm_compute. reflexivity. Qed.
(** a success does not mean that every byte was accepted: the number of bytes the writer reports is ignored *)
Definition short_writer : list str -> str -> wres := fun _ s => WOk (Nat.min 1 (blen s)).
Theorem C48_short_writes_refuted :
  registry_render_to_write 100 pl0 (ins (lit "a") (lit "hello") reg0) (lit "a") JNull short_writer = (AOk tt, [lit "hello"])
  /\ short_writer [] (lit "hello") = WOk 1.
Proof. vm_compute. split; reflexivity. Qed.

(** ** C49: the registry as a map *)
Lemma assoc_del_eq {A} k (l : list (str * A)) : assoc k (assoc_del k l) = None.
Proof. induction l as [|[k' v] l IH]; simpl; [reflexivity|]. destruct (streq k k') eqn:E; [exact IH|]. simpl. rewrite E. exact IH. Qed.
Lemma assoc_del_neq {A} k k' (l : list (str * A)) : k <> k' -> assoc k (assoc_del k' l) = assoc k l.
Proof.
  intros H. induction l as [|[x v] l IH]; simpl; [reflexivity|]. destruct (streq k' x) eqn:E.
  - apply streq_eq in E. subst x. rewrite IH. destruct (streq k k') eqn:E'; [apply streq_eq in E'; contradiction | reflexivity].
  - simpl. rewrite IH. reflexivity.
Qed.
Theorem C49_registry_is_a_map : forall pl name src r,
  (* insert stores what parse gives, under that name only *)
  (forall t, registry_parse pl name src = AOk t ->
     let r' := snd (registry_insert pl name src r) in
     fst (registry_insert pl name src r) = AOk tt
     /\ registry_get name r' = Some t
     /\ (forall other, other <> name -> registry_get other r' = registry_get other r)
     /\ rg_helpers r' = rg_helpers r /\ rg_escape r' = rg_escape r /\ rg_strict r' = rg_strict r)
  (* otherwise insert fails as parse does and changes nothing *)
  /\ ((forall t, registry_parse pl name src <> AOk t) -> snd (registry_insert pl name src r) = r)
  /\ (forall e, registry_parse pl name src = AErr e -> fst (registry_insert pl name src r) = AErr e)
  (* remove returns and deletes exactly that template *)
  /\ fst (registry_remove name r) = registry_get name r
  /\ registry_get name (snd (registry_remove name r)) = None
  /\ (forall other, other <> name -> registry_get other (snd (registry_remove name r)) = registry_get other r).
Proof.
  intros pl name src r. unfold registry_parse, registry_insert, registry_get, registry_remove. split; [|split; [|split; [|split; [|split]]]].
  - intros t ->. cbn. repeat split; [apply assoc_set_eq|]. intros other H. apply assoc_set_neq, H.
  - intros H. destruct (template_compile pl (mkOpts name 0 0) src) as [t|e|p|]; try reflexivity. contradiction (H t). reflexivity.
  - intros e ->. reflexivity.
  - reflexivity.
  - cbn. apply assoc_del_eq.
  - intros other H. cbn. apply assoc_del_neq, H.
Qed.
(** rendering an unknown name fails; rendering a known one renders its template *)
Theorem C49_render_looks_up : forall fuel pl r name data,
  (registry_get name r = None -> registry_render fuel pl r name data = AErr (XNotFound name))
  /\ (forall t, registry_get name r = Some t -> registry_render fuel pl r name data = registry_render_template fuel pl r name t data).
Proof.
  intros fuel pl r name data. unfold registry_get, registry_render, registry_render_to_write, registry_render_template. split; [intros -> | intros t ->]; reflexivity.
Qed.
(** render and render_to_write agree for every writer that accepts what it is given *)
Theorem C49_render_to_write_agrees : forall fuel pl r name data w, (forall out s, w out s = WOk (blen s)) ->
  to_str (registry_render_to_write fuel pl r name data w) = registry_render fuel pl r name data.
Proof.
  intros fuel pl r name data w Hw. unfold registry_render, registry_render_to_write. destruct (assoc name (rg_templates r)) as [t|]; [|reflexivity].
  unfold template_render, render_template_go, to_str.
  pose proof (C47_independent_of_output fuel (mkEnv pl r name data string_writer) (mkEnv pl r name data w) (te_tpl t) (r_new []) [] []
    eq_refl eq_refl eq_refl eq_refl (fun xs s => Hw _ s) eq_refl) as X.
  change (up_out [] (r_new [])) with (r_new []) in X.
  destruct (render_ (tie fuel) (mkEnv pl r name data string_writer) (te_tpl t) (r_new [])) as [[] s|e s|p|].
  - destruct X as (xs & H1 & ->). cbn. cbn in H1. rewrite H1. reflexivity.
  - destruct X as (xs & H1 & ->). reflexivity.
  - rewrite X. reflexivity.
  - rewrite X. reflexivity.
Qed.
(** once, after the template has been inserted under the same name, is the same as render *)
Theorem C49_once_after_insert_partial : forall fuel pl r name src data,
  fst (registry_insert pl name src r) = AOk tt ->
  let r' := snd (registry_insert pl name src r) in
  registry_once fuel pl r' name src data = registry_render fuel pl r' name data.
Proof.
  intros fuel pl r name src data H r'. subst r'. unfold registry_once, registry_render, registry_render_to_write.
  unfold registry_insert in *. destruct (template_compile pl (mkOpts name 0 0) src) as [t|e|p|]; try discriminate H. cbn [snd set_templates rg_templates].
  rewrite assoc_set_eq. reflexivity.
Qed.
(** on the original registry it is not: a template that includes the template it replaces *)
Theorem C49_once_is_insert_then_render_refuted : exists r src,
  registry_once 100 pl0 r (lit "t") src JNull = AOk (lit "new old")
  /\ fst (registry_insert pl0 (lit "t") src r) = AOk tt
  /\ registry_render 100 pl0 (snd (registry_insert pl0 (lit "t") src r)) (lit "t") JNull = AErr (XRender (EPartialCycle (lit "t"))).
Proof. exists (ins (lit "t") (lit "old") reg0), (lit "new {{> t}}"). vm_compute. repeat split; reflexivity. Qed.

(** ** C50: hash parameter order *)
Lemma alike_sym a b : orders_alike a b -> orders_alike b a.
Proof.
  intros [->|(P & N & F)]; [left; reflexivity|]. right. split; [apply Permutation_sym, P|]. split.
  - apply (Permutation_NoDup (l := map fst a)); [apply Permutation_map, P | exact N].
  - apply Forall_forall. intros x Hx. rewrite Forall_forall in F. apply F. apply (Permutation_in x (Permutation_sym P)), Hx.
Qed.
Lemma hoo_sym p1 p2 : hash_order_only p1 p2 -> hash_order_only p2 p1.
Proof. intros [A B C D E]. constructor; auto. intros. apply alike_sym, E. Qed.
Theorem C50_hash_order_irrelevant : forall fuel pl1 pl2 r name t data w stack,
  hash_order_only pl1 pl2 ->
  all_helpers (hall order_blind) r ->
  (forall n h, In (n, h) (rg_helpers r) \/ rg_link r = Some h \/ rg_missing r = Some h \/ rg_block_missing r = Some h -> order_blind h) ->
  template_render fuel pl1 r name t data w stack = template_render fuel pl2 r name t data w stack.
Proof.
  intros fuel pl1 pl2 r name t data w stack Hp (A & B & C & D) Hh.
  assert (X : forall p1 p2, hash_order_only p1 p2 ->
    rel eq Qo It eq (render_ (tie fuel) (mkEnv p1 r name data w) t (r_new stack)) (render_ (tie fuel) (mkEnv p2 r name data w) t (r_new stack))).
  { intros p1 p2 Hp12. eapply (order_render r); try reflexivity.
    - apply Forall_forall. intros [n h] Hn. split; [apply (Hh n); tauto | intros c x; exact (A n h Hn c x)].
    - intros h E. split; [apply (Hh []); tauto | exact (B h E)].
    - intros h E. split; [apply (Hh []); tauto | exact (C h E)].
    - intros h E. split; [apply (Hh []); tauto | exact (D h E)].
    - constructor; auto.
    - apply (RS_new [] stack). }
  pose proof (X pl1 pl2 Hp) as X1. pose proof (X pl2 pl1 (hoo_sym _ _ Hp)) as X2. unfold template_render, render_template_go.
  destruct (render_ (tie fuel) (mkEnv pl1 r name data w) t (r_new stack)), (render_ (tie fuel) (mkEnv pl2 r name data w) t (r_new stack)); simpl in X1, X2; try contradiction; try reflexivity.
  - destruct X1 as [_ X1]. apply order_out in X1. rewrite X1. reflexivity.
  - destruct X1 as [-> X1]. apply order_out in X1. rewrite X1. reflexivity.
  - rewrite X1. reflexivity.
Qed.
Theorem C50_builtins_order_blind : forall pl, all_helpers (hall order_blind) (registry_new pl)
  /\ forall n h, In (n, h) (rg_helpers (registry_new pl)) \/ rg_link (registry_new pl) = Some h \/ rg_missing (registry_new pl) = Some h
       \/ rg_block_missing (registry_new pl) = Some h -> order_blind h.
Proof.
  intros pl. split; [apply builtins_hall|]. intros n h [H|[H|[H|H]]]; [exact (builtins_order_blind pl n h H) | discriminate H | discriminate H | discriminate H].
Qed.
(** two platforms that iterate parameters forwards and backwards *)
Definition pl0_rev : plat := mkPlat pe0 (fun _ => []) (fun _ c => rev (c_params c)) (fun _ => lit "error") true.
Example C50_nonvacuous : registry_render 100 pl0_rev (ins (lit "p") (lit "{{a}}{{b}}") (ins (lit "m") (lit "{{> p b=x a=""1""}}") reg0)) (lit "m") (JObj [(lit "x", JStr (lit "2"))]) = AOk (lit "12")
  /\ registry_render 100 pl0 (ins (lit "p") (lit "{{a}}{{b}}") (ins (lit "m") (lit "{{> p b=x a=""1""}}") reg0)) (lit "m") (JObj [(lit "x", JStr (lit "2"))]) = AOk (lit "12").
Proof. split; vm_compute; reflexivity. Qed.

(** ** C52: buffers *)
(** the outer render is left exactly as it was, and neither its output nor its writer matters to the text *)
Theorem C52_buffer_isolated : forall fuel en1 en2 t st,
  (forall r s, buffer (tie fuel) en1 t st = ROk r s -> s = st) /\ (forall e s, buffer (tie fuel) en1 t st = RErr e s -> s = st)
  /\ (en_plat en2 = en_plat en1 -> en_reg en2 = en_reg en1 -> en_name en2 = en_name en1 -> en_root en2 = en_root en1 ->
      forall out st2, r_scopes st2 = r_scopes st -> r_stack st2 = r_stack st -> r_out st2 = out ->
      match buffer (tie fuel) en1 t st with
      | ROk r _ => buffer (tie fuel) en2 t st2 = ROk r st2
      | RErr e _ => buffer (tie fuel) en2 t st2 = RErr e st2
      | RPanic p => buffer (tie fuel) en2 t st2 = RPanic p
      | RFuel => buffer (tie fuel) en2 t st2 = RFuel
      end).
Proof.
  intros fuel en1 en2 t st. pose proof (buffer_state (tie fuel) en1 t st) as B. split; [|split].
  - intros r s H. rewrite H in B. exact B.
  - intros e s H. rewrite H in B. exact B.
  - intros H1 H2 H3 H4 out st2 H5 H6 _. unfold buffer. replace (en_with_string en2) with (en_with_string en1) by (unfold en_with_string; congruence).
    rewrite H5, H6. destruct (template_ _ _ _ _); reflexivity.
Qed.
(** the text is what the template would have written itself: from a renderer with no local helpers, no
    partial block and no pending whitespace control, into a writer that accepts everything *)
Theorem C52_buffer_text : forall fuel en t st,
  st = up_scopes (r_scopes st) (up_out (r_out st) (r_new (r_stack st))) -> (forall out s, en_write en out s = WOk (blen s)) ->
  match template_ (tie fuel) en t st with
  | ROk _ s => exists xs, r_out s = r_out st ++ xs /\ buffer (tie fuel) en t st = ROk (concat xs) st
  | RErr e s => buffer (tie fuel) en t st = RErr e st
  | RPanic p => buffer (tie fuel) en t st = RPanic p
  | RFuel => buffer (tie fuel) en t st = RFuel
  end.
Proof.
  intros fuel en t st Hst Hw.
  assert (X : moved (r_out st) [] (template_ (tie fuel) en t st) (template_ (tie fuel) (en_with_string en) t (up_out [] st))).
  { apply both_ways; [| |reflexivity]; apply shift_template; try reflexivity; intros; rewrite Hw; reflexivity. }
  assert (E : up_out [] st = up_scopes (r_scopes st) (r_new (r_stack st))) by (rewrite Hst; reflexivity).
  rewrite E in X. unfold buffer. destruct (template_ (tie fuel) en t st) as [[] s|e s|p|]; simpl in X.
  - destruct X as (xs & H1 & ->). exists xs. split; [exact H1 | reflexivity].
  - destruct X as (xs & H1 & ->). reflexivity.
  - rewrite X. reflexivity.
  - rewrite X. reflexivity.
Qed.
(** a helper that renders its block into a buffer and writes it twice *)
Definition twice : helper := fun _ t => match t with
  | Some t => HBuffer t (htry (fun s => HOut s (htry (fun _ => HOut s (htry (fun _ => HRet None))))))
  | None => HRet None end.
Example C52_nonvacuous : once (helper_insert (lit "twice") twice reg0) (lit "<{{#with o}}{{#twice}}{{a}}{{/twice}}{{/with}}>") (JObj [(lit "o", JObj [(lit "a", JStr (lit "x"))])]) = AOk (lit "<xx>").
Proof. vm_compute. reflexivity. Qed.
