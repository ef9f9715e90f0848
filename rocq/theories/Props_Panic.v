(** * Props_Panic: rendering does not panic (C53).
    The vocabulary ([sound_source], [good_template], [calm_registry]) is in Spec_Panic. *)
From Coq Require Import Lia String Permutation.
From Verif Require Import Str Lexer Json Ast ErrInfo Parser Spec_Ast Render Helpers Registry Tests Spec_Lexer TermFacts DocProps Spec_Source SynLayout Props_Source Props_Sem
  Spec_Panic PanicFacts PanicSrc.
Open Scope nat_scope. Open Scope list_scope.

(** ** Main theorem: for every fuel (depth), data, writer and call stack.  [own]: whether the registered helpers
    are allowed to panic by themselves; if so the only panic is theirs. *)
Theorem C53_render_panics : forall pl reg own fuel name t data w stack p,
  table pl -> calm_registry pl reg own -> good_templates pl reg -> good_template pl reg t ->
  fst (template_render fuel pl reg name (te_tpl t) data w stack) = APanic p -> own /\ p = PanUnwrap.
Proof.
  intros pl reg own fuel name t data w stack p Htab Hc Hg Ht H.
  assert (Hs : forall o s n fs, sound_source pl reg s -> compile (pl_penv pl) o s = POk n fs -> safe pl reg s n).
  { intros o s n fs S E. eapply compiled_safe; [exact E | eapply sound_readable; eassumption]. }
  assert (Hgt : forall t, good_template pl reg t -> SP pl reg (te_tpl t)).
  { intros x ((o & fs & E) & R). exact (compiled_safe pl reg o _ _ fs E R). }
  pose proof (np_tie pl reg own Htab Hs (fun nm x Hx => Hgt x (Hg nm x Hx)) Hc fuel) as K.
  assert (He : fine pl reg (mkEnv pl reg name data w)) by (split; reflexivity).
  pose proof (np_render pl reg own (tie fuel) (mkEnv pl reg name data w) (proj1 (K _ He)) (te_tpl t) (Hgt t Ht) (r_new stack) (inv_new pl reg own stack [])) as X.
  unfold template_render, render_template_go in H. destruct (render_ (tie fuel) _ _ _) as [a s|e s|p'|]; cbn [fst] in H; try discriminate H.
  injection H as <-. exact X.
Qed.
Print Assumptions C53_render_panics.

(** No helper panics by itself: no panic at all. *)
Theorem C53_no_panic_partial : forall pl reg fuel name t data w stack p,
  table pl -> calm_registry pl reg False -> good_templates pl reg -> good_template pl reg t ->
  fst (template_render fuel pl reg name (te_tpl t) data w stack) <> APanic p.
Proof. intros pl reg fuel name t data w stack p H1 H2 H3 H4 H. destruct (C53_render_panics _ _ _ _ _ _ _ _ _ _ H1 H2 H3 H4 H) as [[] _]. Qed.
Print Assumptions C53_no_panic_partial.

(** The entry points that render a registered template or a source. *)
Lemma to_str_panic x p : to_str x = APanic p -> fst x = APanic p.
Proof. unfold to_str. destruct (fst x); try discriminate. intros H; injection H as <-. reflexivity. Qed.
Theorem C53_registry_render_partial : forall pl reg fuel name data w p,
  table pl -> calm_registry pl reg False -> good_templates pl reg ->
  registry_render fuel pl reg name data <> APanic p /\ fst (registry_render_to_write fuel pl reg name data w) <> APanic p.
Proof.
  intros pl reg fuel name data w p H1 H2 H3.
  assert (X : forall w, fst (registry_render_to_write fuel pl reg name data w) <> APanic p).
  { intros w'. unfold registry_render_to_write. destruct (assoc name (rg_templates reg)) as [t|] eqn:E; [|discriminate].
    apply C53_no_panic_partial; try assumption. apply (H3 name t), assoc_in, E. }
  split; [|apply X]. intros H. apply to_str_panic in H. exact (X _ H).
Qed.
Print Assumptions C53_registry_render_partial.
Lemma compiled_good pl reg o s t : sound_source pl reg s -> template_compile pl o s = AOk t -> good_template pl reg t.
Proof.
  intros Hs H. unfold template_compile in H. destruct (compile (pl_penv pl) o s) as [n fs|e fs|p|] eqn:E; try discriminate. injection H as <-.
  split; [exists o, fs; exact E | cbn [te_src te_node]; eapply sound_readable; eassumption].
Qed.
Theorem C53_once_partial : forall pl reg fuel name s data p,
  table pl -> calm_registry pl reg False -> good_templates pl reg -> sound_source pl reg s ->
  registry_once fuel pl reg name s data = APanic p -> compile (pl_penv pl) (mkOpts name 0 0) s = PPanic p.
Proof.
  intros pl reg fuel name s data p H1 H2 H3 H4 H. unfold registry_once in H.
  destruct (template_compile pl (mkOpts name 0 0) s) as [t|e|q|] eqn:E; try discriminate H.
  - exfalso. apply to_str_panic in H. revert H. apply C53_no_panic_partial; try assumption. exact (compiled_good _ _ _ _ _ H4 E).
  - injection H as ->. unfold template_compile in E. destruct (compile _ _ s); try discriminate E. injection E as <-. reflexivity.
Qed.
Print Assumptions C53_once_partial.

(** ** Registries of sound sources: [new] is good, [insert] of a sound source keeps it good. *)
Theorem C53_registered_sources : forall pl reg name s,
  good_templates pl (registry_new pl)
  /\ (good_templates pl reg -> sound_source pl reg s -> good_templates pl (snd (registry_insert pl name s reg))).
Proof.
  intros pl reg name s. split; [intros n t []|]. intros Hg Hs. unfold registry_insert.
  destruct (template_compile pl (mkOpts name 0 0) s) as [t|e|q|] eqn:E; cbn [snd]; try exact Hg.
  intros n x Hx. cbn [set_templates rg_templates] in Hx.
  assert (Hx' : In (n, x) (rg_templates reg) \/ x = t).
  { clear -Hx. induction (rg_templates reg) as [|[k v] l IH]; cbn [assoc_set] in Hx.
    - destruct Hx as [Hx|[]]. injection Hx as _ <-. right; reflexivity.
    - destruct (streq name k).
      + destruct Hx as [Hx|Hx]; [injection Hx as _ <-; right; reflexivity | left; right; exact Hx].
      + destruct Hx as [Hx|Hx]; [left; left; exact Hx|]. destruct (IH Hx) as [H|H]; [left; right; exact H | right; exact H]. }
  destruct Hx' as [Hx'| ->]; [exact (Hg n x Hx') | exact (compiled_good pl reg _ _ _ Hs E)].
Qed.
Print Assumptions C53_registered_sources.

(** ** The built-in helpers.  All are calm if panics of their own are allowed; all but [lookup] and [log] never panic. *)
Lemma calm_try {A} pl reg own P (k : A -> hprog) r : (forall a, calm pl reg own P (k a)) -> calm pl reg own P (htry k r).
Proof. intros H. destruct r; [apply H | exact I]. Qed.
Lemma nth_range (c : hctx) i n : length (hc_args c) = n -> i < n -> ctx_get c i <> None.
Proof. intros E H. unfold ctx_get. apply nth_error_Some. lia. Qed.
Lemma arity_exact c n : match ctx_arity c n n with HOk _ => N.of_nat (length (hc_args c)) = n | HErr _ => True end.
Proof. unfold ctx_arity. rewrite N.eqb_refl. destruct (N.eqb_spec (N.of_nat (length (hc_args c))) n); [assumption | exact I]. Qed.
Lemma calm_arity pl reg own P c n k : (N.of_nat (length (hc_args c)) = n -> calm pl reg own P k) -> calm pl reg own P (with_arity c n n k).
Proof. intros H. unfold with_arity. pose proof (arity_exact c n) as X. destruct (ctx_arity c n n); [exact (H X) | exact I]. Qed.
Lemma calm_arg pl reg own P c i k : i < length (hc_args c) -> (forall v, calm pl reg own P (k v)) -> calm pl reg own P (with_arg c i k).
Proof.
  intros H1 H2. unfold with_arg. pose proof (nth_range c i _ eq_refl H1) as X. destruct (ctx_get c i); [apply H2 | congruence].
Qed.
Lemma calm_each_obj pl reg own (P : tpl -> Prop) t l : P t -> forall i k, calm pl reg own P k -> calm pl reg own P (each_obj t i l k).
Proof. intros Ht. induction l as [|[x v] l IH]; intros i k Hk; [exact Hk|]. cbn [each_obj calm]. split; [exact Ht|]. intros r. apply calm_try. intros _. apply IH, Hk. Qed.
Lemma calm_each_arr pl reg own (P : tpl -> Prop) t n l : P t -> forall i k, calm pl reg own P k -> calm pl reg own P (each_arr t n i l k).
Proof. intros Ht. induction l as [|v l IH]; intros i k Hk; [exact Hk|]. cbn [each_arr calm]. split; [exact Ht|]. intros r. apply calm_try. intros _. apply IH, Hk. Qed.
Lemma calm_body pl reg own (P : tpl -> Prop) t : P t -> calm pl reg own P (HTemplate t (htry (fun _ => HRet None))).
Proof. intros H. split; [exact H|]. intros r. apply calm_try. intros _. exact I. Qed.
Lemma calm_else pl reg own (P : tpl -> Prop) t : P t ->
  calm pl reg own P (HInverse t (htry (fun n => match n with Some n => HTemplate n (htry (fun _ => HRet None)) | None => HRet None end))).
Proof.
  intros H. split; [exact H|]. split; [|intros e; exact I]. intros [o|] Ho; cbn [htry]; [apply calm_body, Ho | exact I].
Qed.
Lemma calm_log pl reg own P lv k : calm pl reg own P k -> forall ls, calm pl reg own P (log_lines lv ls k).
Proof. intros H. induction ls as [|l ls IH]; [exact H|exact IH]. Qed.
Definition may_panic (name : str) : Prop := name = lit "lookup" \/ name = lit "log".
Theorem C53_builtins : forall pl reg name h, In (name, h) (builtins (pl_fstr pl)) ->
  calm_helper pl reg (may_panic name) h.
Proof.
  intros pl reg name h Hin P HP c t Ht.
  assert (Hcmp : forall own op, calm pl reg own P (cmp_helper op c t)).
  { intros own op. apply calm_arity. intros _. apply calm_try. intros l. apply calm_try. intros r. destruct l; try exact I; destruct r; exact I. }
  unfold builtins in Hin.
  repeat (destruct Hin as [E|Hin]; [injection E as <- <-; try (apply Hcmp; fail)|]); [..|destruct Hin].
  - apply calm_arity. intros Hn. apply calm_arg; [lia|]. intros v. destruct t as [t|]; [|exact I].
    destruct (is_truthy v); [apply calm_body, Ht | apply calm_else, Ht].
  - apply calm_arity. intros Hn. destruct t as [t|]; [|exact I]. apply calm_arg; [lia|]. intros v.
    destruct (negb (is_truthy v)); [apply calm_body, Ht | apply calm_else, Ht].
  - unfold log_helper. unfold with_arity. apply calm_try. intros _. cbv zeta. destruct (ctx_param c (lit "level")) as [[]|]; try (apply calm_log; exact I); right; reflexivity.
  - apply calm_arity. intros Hn. apply calm_arg; [lia|]. intros v. destruct (ctx_try_get c 1 [TyString]) as [[| | |f| |]|e]; try (left; reflexivity).
    destruct (find_field v f); exact I.
  - apply calm_arity. intros Hn. apply calm_arg; [lia|]. intros a. apply calm_arg; [lia|]. intros b. exact I.
  - apply calm_arity. intros Hn. apply calm_arg; [lia|]. intros a. apply calm_arg; [lia|]. intros b. exact I.
  - apply calm_arity. intros Hn. apply calm_arg; [lia|]. intros a. exact I.
  - apply calm_arity. intros Hn. destruct (ctx_get c 0) as [[]|]; try exact I; (destruct t as [t|]; [|exact I]); cbn [calm];
      (split; [exact Ht|]; intros r; apply calm_try; intros _; cbn [calm]; intros; exact I).
  - apply calm_arity. intros Hn. destruct t as [t|]; [|exact I]. apply calm_arg; [lia|]. intros v.
    match goal with |- calm ?a ?b ?c ?d (HPushScope _ ?k) => change (calm a b c d k) end. cbv zeta.
    destruct v; try (cbn [calm]; intros; exact I); [apply calm_each_arr | apply calm_each_obj]; try exact Ht; cbn [calm]; intros; exact I.
  - apply calm_arity. intros Hn. apply calm_arg; [lia|]. intros a. exact I.
Qed.
Print Assumptions C53_builtins.

(** What a registry with the built-in helpers gives: with [lookup] and [log] the only panic is their failed unwrap;
    without them there is none. *)
Lemma calm_mono pl reg (own own' : Prop) P p : (own -> own') -> calm pl reg own P p -> calm pl reg own' P p.
Proof.
  intros Ho. induction p; cbn [calm]; intros Hc; try exact I; try (exact (Ho Hc)); try (intros; auto; fail); repeat (destruct Hc as [? Hc]); repeat split; auto.
Qed.
Lemma calm_helper_mono pl reg (own own' : Prop) h : (own -> own') -> calm_helper pl reg own h -> calm_helper pl reg own' h.
Proof. intros Ho H P HP c t Ht. apply (calm_mono pl reg own own' P _ Ho), H; assumption. Qed.
Theorem C53_builtin_registry : forall pl reg fuel name t data w stack,
  table pl -> good_templates pl reg -> good_template pl reg t ->
  rg_link reg = None -> rg_missing reg = None -> rg_block_missing reg = None ->
  (forall n h, In (n, h) (rg_helpers reg) -> In (n, h) (builtins (pl_fstr pl))) ->
  (forall p, fst (template_render fuel pl reg name (te_tpl t) data w stack) = APanic p -> p = PanUnwrap)
  /\ ((forall n h, In (n, h) (rg_helpers reg) -> ~ may_panic n) ->
      forall p, fst (template_render fuel pl reg name (te_tpl t) data w stack) <> APanic p).
Proof.
  intros pl reg fuel name t data w stack Htab Hg Ht L1 L2 L3 Hb. split.
  - intros p Hp. eapply (C53_render_panics pl reg True); try eassumption. split; [|rewrite L1, L2, L3; repeat split; intros; discriminate].
    intros n h Hin. eapply calm_helper_mono; [|apply (C53_builtins pl reg n h), Hb, Hin]. intros; exact I.
  - intros Hno p. apply C53_no_panic_partial; try assumption. split; [|rewrite L1, L2, L3; repeat split; intros; discriminate].
    intros n h Hin. eapply calm_helper_mono; [|apply (C53_builtins pl reg n h), Hb, Hin]. exact (Hno n h Hin).
Qed.
Print Assumptions C53_builtin_registry.

(** ** Non-vacuity: two templates, one of them with a multibyte character, a partial, [each] with [else]. *)
Definition quiet_builtins : list (str * helper) :=
  filter (fun kv => negb (streq (fst kv) (lit "lookup") || streq (fst kv) (lit "log"))) (builtins (pl_fstr pl0)).
Definition src_row : str := lit "<li>{{this}} {{@index}}</li>".
Definition src_page : list item :=
  [IText ([233%N] ++ lit ": ");
   IBlock false (Call (HdName (lit "each")) [] [EPath (HdName (lit "l")) []] []) (mkTildes false false)
     [ICall false (mkTildes false false) true (Call (HdName (lit "row")) [] [EPath HdThis []] [])]
     [(None, mkTildes true false, [IText ([233%N; 33%N])])] (mkTildes false false)].
Definition reg53 : registry :=
  ins (lit "page") (doc_text src_page) (ins (lit "row") src_row (mkReg quiet_builtins None None None [] html false)).
Lemma insert_keeps pl name s r : let r' := snd (registry_insert pl name s r) in
  rg_helpers r' = rg_helpers r /\ rg_link r' = rg_link r /\ rg_missing r' = rg_missing r /\ rg_block_missing r' = rg_block_missing r.
Proof. unfold registry_insert. destruct (template_compile _ _ _); repeat split. Qed.
Example C53_nonvacuous :
  table pl0 /\ calm_registry pl0 reg53 False /\ good_templates pl0 reg53
  /\ registry_render 100 pl0 reg53 (lit "page") (JObj [(lit "l", JArr [JStr (lit "a"); JStr (lit "<")])])
     = AOk ([233%N] ++ lit ": <li>a </li><li>&lt; </li>").
Proof.
  assert (Hp : Spec_Source.doc_ok (pl_penv pl0) src_page) by (change (pl_penv pl0) with pe0; unfold Spec_Source.doc_ok, src_page; ok_items).
  split; [intros src c; apply Permutation_refl|]. split; [|split; [|vm_compute; reflexivity]].
  - assert (E : rg_helpers reg53 = quiet_builtins /\ rg_link reg53 = None /\ rg_missing reg53 = None /\ rg_block_missing reg53 = None).
    { unfold reg53, ins. destruct (insert_keeps pl0 (lit "page") (doc_text src_page) (snd (registry_insert pl0 (lit "row") src_row (mkReg quiet_builtins None None None [] html false)))) as (-> & -> & -> & ->).
      destruct (insert_keeps pl0 (lit "row") src_row (mkReg quiet_builtins None None None [] html false)) as (-> & -> & -> & ->). repeat split. }
    destruct E as (E1 & E2 & E3 & E4). split; [|rewrite E2, E3, E4; repeat split; intros; discriminate].
    intros n h Hin. rewrite E1 in Hin. apply filter_In in Hin. destruct Hin as [Hin Hn]. cbn [fst] in Hn.
    eapply calm_helper_mono; [|apply (C53_builtins pl0 reg53 n h Hin)].
    intros [-> | ->]; discriminate Hn.
  - set (r0 := mkReg quiet_builtins None None None [] html false) in *.
    assert (G1 : good_templates pl0 (ins (lit "row") src_row r0)).
    { apply (proj2 (C53_registered_sources pl0 r0 (lit "row") src_row)); [intros ? ? []|]. left. split; [vm_compute; repeat constructor|].
      intros [_ H]. exact (False_ind _ (H eq_refl)). }
    apply (proj2 (C53_registered_sources pl0 (ins (lit "row") src_row r0) (lit "page") (doc_text src_page)) G1).
    right. exists src_page. split; [exact Hp | exact (doc_canon _ _ _ Hp)].
Qed.

(** ** The full claim is false: rendering panics on each of these (compiled without error). *)
Definition render_panics (reg : registry) (src : str) (d : json) : Prop :=
  match registry_parse pl0 (lit "t") src with
  | AOk t => match registry_render_template 100 pl0 reg (lit "t") t d with APanic _ => True | _ => False end
  | _ => False
  end.
Definition eacute : str := [233%N].
Theorem C53_no_panic_refuted :
  (* a block or raw block whose name ends in a multibyte character *)
  render_panics (helper_insert eacute if_helper reg0) (lit "{{#" ++ eacute ++ lit " true}}y{{/" ++ eacute ++ lit "}}") (JObj [])
  /\ render_panics (helper_insert eacute h_raw reg0) (lit "{{{{" ++ eacute ++ lit "}}}}x{{{{/" ++ eacute ++ lit "}}}}") (JObj [])
  (* a multibyte character right before a second else *)
  /\ render_panics reg0 (lit "{{#if a}}1{{else if b}}" ++ eacute ++ lit "{{else}}3{{/if}}") (JObj [(lit "b", JBool true)])
  (* an argument of the wrong type *)
  /\ render_panics reg0 (lit "{{lookup l 0}}") (JObj [(lit "l", JArr [])])
  /\ render_panics reg0 (lit "{{log ""x"" level=1}}") (JObj [])
  (* a link with an empty label, with a link handler *)
  /\ render_panics regl (lit "[[a|]]") (JObj []).
Proof. unfold render_panics. do 5 (split; [vm_compute; exact I|]). vm_compute. exact I. Qed.
Print Assumptions C53_no_panic_refuted.
