(** * UnaryFacts: what a render does to the renderer state, one traversal for several properties. *)
From Coq Require Import Lia String.
From Verif Require Import Str Json Ast ErrInfo Parser Render Helpers RelFacts.
Open Scope nat_scope. Open Scope list_scope.

Definition not_io (e : rerr) : Prop := match e with EIo _ => False | _ => True end.
Definition push_site (s : site) (st : rst) : rst := up_stack (s :: r_stack st) st.
Definition push_sc (s : scope) (st : rst) : rst := up_scopes (s :: r_scopes st) st.
Definition pop_sc (st : rst) : rst := up_scopes (tl (r_scopes st)) st.

Section Unary.
Variable Inv : rst -> Prop.
Variable TO : rst -> rst -> Prop.            (* what success does *)
Variable TE : rerr -> rst -> rst -> Prop.    (* what an error does *)
Definition post {A} (st : rst) (r : rres A) : Prop :=
  match r with
  | ROk _ s => Inv s /\ TO st s
  | RErr e s => Inv s /\ TE e st s
  | _ => True
  end.
Definition spec {A} (m : M A) : Prop := forall st, Inv st -> post st (m st).
Record frame : Prop := mkFrame {
  fr_refl : forall s, TO s s;
  fr_trans : forall a b c, TO a b -> TO b c -> TO a c;
  fr_err : forall e a b c, TO a b -> TE e b c -> TE e a c;
  fr_fail : forall e s, not_io e -> TE e s s;
  fr_trim : forall v s, Inv s -> Inv (up_trim v s) /\ TO s (up_trim v s);
  fr_hint : forall v s, Inv s -> Inv (up_hint v s) /\ TO s (up_hint v s);
  fr_end : forall v s, Inv s -> Inv (up_end v s) /\ TO s (up_end v s);
  fr_partials : forall t s, Inv s -> Inv (up_partials (assoc_set partial_block t (r_partials s)) s) /\ TO s (up_partials (assoc_set partial_block t (r_partials s)) s);
  fr_names : forall v s, Inv s -> Inv (up_names v s) /\ TO s (up_names v s);
  fr_stack : forall x s, Inv s ->
    match x with SPartial _ => existsb (site_eq x) (r_stack s) = false | _ => count_site x (r_stack s) < stack_max end -> Inv (push_site x s);
  fr_stack_ok : forall x s s', Inv s' -> TO (push_site x s) s' -> Inv (pop_stack s') /\ TO s (pop_stack s');
  fr_stack_err : forall x e s s', TE e (push_site x s) s' -> TE e s s';
  fr_scope : forall x s, Inv s -> Inv (push_sc x s);
  fr_scope_ok : forall x s s', Inv s' -> TO (push_sc x s) s' -> Inv (pop_sc s') /\ TO s (pop_sc s');
  fr_scope_err : forall x e s s', TE e (push_sc x s) s' -> TE e s s' }.
Hypothesis F : frame.

Lemma spec_bind {A B} (m : M A) (f : A -> M B) : spec m -> (forall a, spec (f a)) -> spec (bind m f).
Proof.
  intros Hm Hf st Hi. specialize (Hm st Hi). unfold bind. destruct (m st) as [a s|e s|p|]; simpl in Hm; try exact I; [|exact Hm].
  destruct Hm as [Hi' Ht]. specialize (Hf a s Hi'). destruct (f a s) as [b s'|e s'|p|]; simpl in Hf |- *; try exact I; destruct Hf as [Hi2 Ht2].
  - split; [exact Hi2 | exact (fr_trans F _ _ _ Ht Ht2)].
  - split; [exact Hi2 | exact (fr_err F _ _ _ _ Ht Ht2)].
Qed.
Lemma spec_ret {A} (a : A) : spec (ret a).
Proof. intros st Hi. split; [exact Hi | apply (fr_refl F)]. Qed.
Lemma spec_fail {A} e : not_io e -> spec (@fail A e).
Proof. intros He st Hi. split; [exact Hi | apply (fr_fail F), He]. Qed.
Lemma spec_need {A} (o : option A) : spec (need o).
Proof. destruct o; [apply spec_ret|]. intros st Hi. exact I. Qed.
Lemma spec_get {A} (f : rst -> M A) : (forall s, Inv s -> post s (f s s)) -> spec (bind get f).
Proof. intros H st Hi. apply H, Hi. Qed.
Lemma spec_read {A} (f : rst -> M A) : (forall s, spec (f s)) -> spec (bind get f).
Proof. intros H. apply spec_get. intros s Hi. apply H, Hi. Qed.
Lemma spec_upd f : (forall s, Inv s -> Inv (f s) /\ TO s (f s)) -> spec (upd f).
Proof. intros H st Hi. apply H, Hi. Qed.

Variable K : knot.
Variable en : env.
Hypothesis Hnode : forall src n tr, spec (k_node K en src n tr).
Hypothesis Hcall : forall src c, spec (k_call K en src c).
Hypothesis Hstmt : forall src c, spec (k_stmt K en src c).
Hypothesis Hemit : forall s, spec (emit en s).
Ltac need := apply spec_bind; [apply spec_need|].

Lemma spec_write s e : spec (write_str en s e).
Proof.
  unfold write_str. apply spec_read. intros st. destruct (if ts_end (r_trim st) then _ else _); [apply spec_ret | apply Hemit].
Qed.
Lemma spec_lookup src p : spec (mlookup en src p).
Proof. unfold mlookup. apply spec_read. intros st. apply spec_need. Qed.
Lemma spec_evaluate s : spec (evaluate en s).
Proof.
  unfold evaluate. destruct (path_from_str _ s) as [[p|] fs|e fs|p|]; [apply spec_lookup | apply spec_ret | apply spec_fail; exact I | |]; intros st Hi; exact I.
Qed.
Lemma spec_iter src (f : node -> trim_state -> bool -> bool -> M unit) ns :
  (forall n tr a b, spec (f n tr a b)) -> forall prev hint, spec (iter_nodes src f prev hint ns).
Proof.
  intros Hf. induction ns as [|n ns IH]; intros prev hint; [apply spec_ret|]. cbn [iter_nodes].
  destruct (match prev with Some b => (b, hint) | None => _ end) as [start hint'].
  apply spec_bind; [destruct ns; [apply spec_ret | need; intros; apply spec_ret]|]. intros stop. need. intros hn.
  apply spec_bind; [apply Hf | intros; apply IH].
Qed.
Lemma spec_render t : spec (render_ K en t).
Proof. apply spec_iter. intros. apply Hnode. Qed.
Lemma spec_template t : spec (template_ K en t).
Proof.
  unfold template_. cbv zeta. apply spec_read. intros st. apply spec_bind.
  - apply spec_iter. intros n tr a b. apply spec_bind; [destruct a; [need; intros; apply spec_ret | apply spec_ret]|].
    intros tr1. apply spec_bind; [|intros; apply Hnode]. destruct b; [|apply spec_ret]. destruct (tp_node t); try apply spec_ret. need. intros; apply spec_ret.
  - intros _. apply spec_bind; [|intros h; apply spec_upd, (fr_end F)].
    destruct (children (tp_node t)); [apply spec_ret|]. destruct (tp_node t); try apply spec_ret. need. intros; apply spec_ret.
Qed.
Lemma spec_inverse_go src cs : forall alt, spec (inverse_go K en src alt cs).
Proof.
  induction cs as [|n cs IH]; intros alt; [apply spec_ret|]. destruct n; cbn [inverse_go]; try apply IH.
  destruct (call_is_empty (b_call b)); [apply IH|]. apply spec_bind; [apply Hcall|]. intros [v|]; [|apply IH]. destruct (is_truthy v); [apply spec_ret | apply IH].
Qed.
Lemma spec_inverse t : spec (inverse K en t).
Proof. unfold inverse. destruct (tp_node t); try apply spec_ret. apply spec_bind; [apply spec_inverse_go | intros; apply spec_ret]. Qed.
Lemma spec_eval_param src p : spec (eval_param K en src p).
Proof.
  unfold eval_param. destruct p; [|apply spec_ret|].
  - apply spec_bind; [apply spec_lookup|]. intros [v|]; [apply spec_ret | need; intros; apply spec_ret].
  - apply spec_bind; [apply Hstmt|]. intros [v|]; [apply spec_ret | need; intros; apply spec_ret].
Qed.
Lemma spec_arguments src ps : forall i, spec (arguments K en src i ps).
Proof.
  induction ps as [|p ps IH]; intros i; [apply spec_ret|]. cbn [arguments]. apply spec_bind; [apply spec_eval_param|]. intros r.
  apply spec_bind; [apply IH | intros; apply spec_ret].
Qed.
Lemma spec_hash_go src ps : forall acc, spec (hash_go K en src ps acc).
Proof.
  induction ps as [|[k p] ps IH]; intros acc; [apply spec_ret|]. cbn [hash_go]. apply spec_bind; [apply spec_eval_param|]. intros r.
  apply spec_bind; [apply IH | intros; apply spec_ret].
Qed.
Lemma spec_hash src c : spec (hash K en src c).
Proof. apply spec_hash_go. Qed.

(** brackets *)
Lemma bracket_stack {A} x (body : M A) : spec body -> forall s, Inv s ->
  match x with SPartial _ => existsb (site_eq x) (r_stack s) = false | _ => count_site x (r_stack s) < stack_max end ->
  post s ((upd (push_site x) ;; let* v := body in upd pop_stack ;; ret v) s).
Proof.
  intros Hb s Hi Hc. pose proof (fr_stack F x s Hi Hc) as Hi'. specialize (Hb _ Hi'). unfold bind, upd, ret.
  destruct (body (push_site x s)) as [a s'|e s'|p|]; simpl in Hb |- *; try exact I; destruct Hb as [H1 H2].
  - exact (fr_stack_ok F _ _ _ H1 H2).
  - split; [exact H1 | exact (fr_stack_err F _ _ _ _ H2)].
Qed.
Lemma bracket_scope {A} x (body : M A) : spec body -> spec (upd (push_sc x) ;; let* v := body in upd pop_sc ;; ret v).
Proof.
  intros Hb s Hi. pose proof (fr_scope F x s Hi) as Hi'. specialize (Hb _ Hi'). unfold bind, upd, ret.
  destruct (body (push_sc x s)) as [a s'|e s'|p|]; simpl in Hb |- *; try exact I; destruct Hb as [H1 H2].
  - exact (fr_scope_ok F _ _ _ H1 H2).
  - split; [exact H1 | exact (fr_scope_err F _ _ _ _ H2)].
Qed.
Lemma bind_assoc {A B C} (m : M A) (f : A -> M B) (g : B -> M C) st : bind (bind m f) g st = bind m (fun a => bind (f a) g) st.
Proof. unfold bind. destruct (m st); reflexivity. Qed.
Lemma bind_ext {A B} (m : M A) (f g : A -> M B) st : (forall a s, f a s = g a s) -> bind m f st = bind m g st.
Proof. intros H. unfold bind. destruct (m st); [apply H | reflexivity..]. Qed.

(** helpers *)
Variable G : helper -> Prop.
Hypothesis Hrun : forall f ctx t, G f -> spec (run K en (f ctx t)).
Hypothesis Hlocal : forall s, Inv s -> Forall (fun kh => G (snd kh)) (r_local s).
Hypothesis Hreg : Forall (fun kh => G (snd kh)) (rg_helpers (en_reg en)).
Hypothesis Hlink : forall h, rg_link (en_reg en) = Some h -> G h.
Hypothesis Hmissing : forall h, rg_missing (en_reg en) = Some h -> G h.
Hypothesis Hblockm : forall h, rg_block_missing (en_reg en) = Some h -> G h.
Lemma assoc_G n l h : Forall (fun kh => G (snd kh)) l -> assoc n l = Some h -> G h.
Proof. intros Hl. induction Hl as [|[k v] l Hv Hl IH]; simpl; [discriminate|]. destruct (streq n k); [intros H; injection H as <-; exact Hv | exact IH]. Qed.

Lemma spec_invoke src name tg c content text prop : match tg with ByRef h => G h | ByName _ => True end ->
  spec (invoke K en src name tg c content text prop).
Proof.
  intros Htg. unfold invoke. cbv zeta. apply spec_get. intros st Hi.
  set (x := match content with Some _ => SBlock name | None => SHelper name end).
  destruct (Nat.leb_spec stack_max (count_site x (r_stack st))) as [Hc|Hc]; [apply spec_fail; [exact I | exact Hi]|].
  set (body := let* a := arguments K en src 0 (c_args c) in let* h := hash K en src c in
     let* s := get in
     match tg with
     | ByName n => match assoc n (r_local s) with
                   | Some f => run K en (f (mkHctx c src name (fst a) (fst h) text prop (snd a ++ snd h)) content)
                   | None => match assoc n (rg_helpers (en_reg en)) with
                             | Some f => run K en (f (mkHctx c src name (fst a) (fst h) text prop (snd a ++ snd h)) content)
                             | None => ret None end end
     | ByRef f => run K en (f (mkHctx c src name (fst a) (fst h) text prop (snd a ++ snd h)) content) end).
  assert (Hb : spec body).
  { apply spec_bind; [apply spec_arguments|]. intros a. apply spec_bind; [apply spec_hash|]. intros h. apply spec_get. intros s Hs.
    destruct tg as [n|f]; [|apply Hrun; [exact Htg | exact Hs]].
    destruct (assoc n (r_local s)) as [f|] eqn:E1; [apply Hrun; [exact (assoc_G _ _ _ (Hlocal s Hs) E1) | exact Hs]|].
    destruct (assoc n (rg_helpers (en_reg en))) as [f|] eqn:E2; [apply Hrun; [exact (assoc_G _ _ _ Hreg E2) | exact Hs] | apply spec_ret, Hs]. }
  pose proof (bracket_stack x body Hb st Hi) as H.
  assert (Hx : match x with SPartial _ => existsb (site_eq x) (r_stack st) = false | _ => count_site x (r_stack st) < stack_max end).
  { subst x. destruct content; exact Hc. }
  specialize (H Hx).
  match goal with |- post st ?r => enough (E : r = (upd (push_site x);; (let* v := body in upd pop_stack;; ret v)) st) by (rewrite E; exact H) end.
  apply bind_ext. intros _ s. unfold body. rewrite bind_assoc. apply bind_ext. intros a s'. rewrite bind_assoc. apply bind_ext. intros h s''.
  rewrite bind_assoc. reflexivity.
Qed.
Lemma spec_resolve src p : spec (resolve en src p).
Proof.
  unfold resolve. apply spec_bind; [apply spec_lookup|]. intros [v|]; [apply spec_ret|]. destruct (rg_strict (en_reg en)); [need; intros; apply spec_fail; exact I | apply spec_ret].
Qed.
Lemma spec_call src c : spec (call_ K en src c).
Proof.
  unfold call_. destruct (c_target c); [|apply Hcall]. destruct (pa_explicit p); [apply spec_lookup|]. destruct (path_is_simple p); [|apply spec_resolve].
  need. intros name. apply spec_read. intros st. destruct (has_helper en name st); [apply spec_invoke; exact I|].
  apply spec_bind; [apply spec_lookup|]. intros [v|]; [apply spec_ret|]. destruct (rg_missing (en_reg en)) as [h|] eqn:E; [apply spec_invoke, Hmissing; reflexivity|].
  destruct (rg_strict (en_reg en)); [apply spec_fail; exact I | apply spec_ret].
Qed.
Lemma spec_partial_name src c : spec (get_partial_name K en src c).
Proof.
  unfold get_partial_name. destruct (c_target c).
  - need. intros s. destruct (streq s partial_block); [apply spec_ret|]. destruct (path_is_simple p); [apply spec_ret | apply spec_fail; exact I].
  - apply spec_bind; [apply Hstmt | intros; apply spec_ret].
Qed.
Lemma spec_partial src c pb : spec (render_partial K en src c pb).
Proof.
  unfold render_partial. apply spec_bind; [apply spec_partial_name|]. intros name. apply spec_get. intros st Hi.
  destruct (existsb (site_eq (SPartial name)) (r_stack st)) eqn:Ex; [apply spec_fail; [exact I | exact Hi]|].
  set (scoped := fun (t : tpl) (sc : scope) => upd (push_sc sc) ;; let* v := (let* st := get in
      iter_nodes (tp_src t) (fun n tr _ _ => k_node K en (tp_src t) n tr) None (r_hint st) (children (tp_node t))) in upd pop_sc ;; ret v).
  set (body := (match pb with
     | Some t => upd (fun st => up_partials (assoc_set partial_block t (r_partials st)) st)
     | None => ret tt
     end) ;;
    let* st := get in
    let* t := (match assoc name (r_partials st) with
               | Some t => ret t
               | None =>
                   match assoc name (rg_templates (en_reg en)) with
                   | Some te => upd (fun st => up_names (te_file te :: r_names st) st) ;; ret (te_tpl te)
                   | None => fail (EPartialNotFound name)
                   end
               end) in
    let* h := hash K en src c in
    let* sc := (match c_args c with
                | [] => ret (mkScope (Some (JObj (fst h))) [])
                | _ =>
                    let* a := arguments K en src 0 (c_args c) in
                    match fst a with
                    | x :: _ => ret (mkScope (Some x) (fst h))
                    | [] => ret (mkScope (Some (JObj (fst h))) [])
                    end
                end) in
    scoped t sc ;;
    upd (fun st => up_names (tl (r_names st)) st)).
  assert (Hb : spec body).
  { apply spec_bind; [destruct pb; [apply spec_upd; intros s Hs; apply (fr_partials F), Hs | apply spec_ret]|]. intros _.
    apply spec_read. intros s. apply spec_bind.
    { destruct (assoc name (r_partials s)); [apply spec_ret|]. destruct (assoc name (rg_templates (en_reg en))); [|apply spec_fail; exact I].
      apply spec_bind; [apply spec_upd; intros s' Hs'; apply (fr_names F), Hs' | intros; apply spec_ret]. }
    intros t. apply spec_bind; [apply spec_hash|]. intros h. apply spec_bind.
    { destruct (c_args c); [apply spec_ret|]. apply spec_bind; [apply spec_arguments|]. intros a. destruct (fst a); apply spec_ret. }
    intros sc. apply spec_bind; [|intros _; apply spec_upd; intros s' Hs'; apply (fr_names F), Hs'].
    unfold scoped. apply bracket_scope. apply spec_read. intros s'. apply spec_iter. intros. apply Hnode. }
  pose proof (bracket_stack (SPartial name) body Hb st Hi Ex) as H.
  match goal with |- post st ?r => enough (E : r = match (upd (push_site (SPartial name));; (let* v := body in upd pop_stack;; ret v)) st with ROk a s => ROk tt s | RErr e s => RErr e s | RPanic p => RPanic p | RFuel => RFuel end) end.
  { rewrite E. destruct ((upd (push_site (SPartial name));; (let* v := body in upd pop_stack;; ret v)) st); exact H. }
  assert (W : forall (m : M unit) s, m s = match bind m (fun v => ret v) s with ROk a s => ROk tt s | RErr e s => RErr e s | RPanic p => RPanic p | RFuel => RFuel end).
  { intros m s. unfold bind, ret. destruct (m s) as [[] ?|? ?|?|]; reflexivity. }
  rewrite W. match goal with |- match ?a with _ => _ end = match ?b with _ => _ end => enough (X : a = b) by (rewrite X; reflexivity) end.
  rewrite bind_assoc. apply bind_ext. intros _ s. rewrite bind_assoc. unfold body. rewrite bind_assoc. apply bind_ext. intros _ s1.
  rewrite !bind_assoc. apply bind_ext. intros s2 s3. rewrite !bind_assoc. apply bind_ext. intros t s4. rewrite !bind_assoc. apply bind_ext. intros h s5.
  rewrite !bind_assoc. apply bind_ext. intros sc s6. rewrite !bind_assoc. unfold scoped. rewrite bind_assoc. apply bind_ext. intros _ s7.
  rewrite !bind_assoc. apply bind_ext. intros s8 s9. rewrite bind_assoc. apply bind_ext. intros v s10. rewrite !bind_assoc. apply bind_ext. intros _ s11.
  unfold bind, ret, upd. reflexivity.
Qed.
Lemma spec_stmt src c : spec (stmt_ K en src c).
Proof. unfold stmt_. destruct (c_partial c); [|apply spec_call]. apply spec_bind; [apply spec_partial | intros; apply spec_ret]. Qed.
Lemma spec_write_u s e : spec (write_str en s e ;; ret tt).
Proof. apply spec_bind; [apply spec_write | intros; apply spec_ret]. Qed.
Lemma spec_block_missing t c text raw : spec (block_missing K en t c text raw).
Proof.
  unfold block_missing. cbv zeta. destruct raw; [destruct text; [apply spec_write_u | apply spec_ret]|].
  destruct (c_target c); [|apply spec_ret]. apply spec_bind; [apply spec_lookup|]. intros [v|].
  - destruct (rg_block_missing (en_reg en)) as [h|] eqn:E; [|apply spec_template]. need. intros name.
    apply spec_bind; [apply spec_invoke, Hblockm; reflexivity | intros; apply spec_ret].
  - destruct (rg_missing (en_reg en)) as [h|] eqn:E; [apply spec_bind; [apply spec_invoke, Hmissing; reflexivity | intros; apply spec_ret]|].
    destruct (rg_strict (en_reg en)); [need; intros; apply spec_fail; exact I | apply spec_ret].
Qed.
Lemma spec_raw_text src b : spec (raw_text src b).
Proof.
  unfold raw_text. apply spec_bind; [destruct (b_nodes b); [apply spec_ret | apply spec_need]|]. intros s. need. intros hint. need. intros h. cbv zeta.
  apply spec_bind; [apply spec_upd, (fr_end F) | intros; apply spec_ret].
Qed.
Lemma spec_block src b : spec (block_ K en src b).
Proof.
  unfold block_. cbv zeta. destruct (c_partial (b_call b)); [apply spec_partial|]. destruct (c_target (b_call b)); [|apply spec_fail; exact I].
  destruct (path_is_simple p); [|need; intros; apply spec_fail; exact I].
  apply spec_bind; [destruct (b_raw b); [apply spec_bind; [apply spec_raw_text | intros; apply spec_ret] | apply spec_ret]|].
  intros text. need. intros name. apply spec_read. intros st. destruct (has_helper en name st); [|apply spec_block_missing].
  apply spec_bind; [apply spec_invoke; exact I | intros; apply spec_ret].
Qed.
Lemma spec_node_body src n : spec (node_body K en src n).
Proof.
  unfold node_body. destruct n; try apply spec_ret.
  - need. intros s. apply spec_write_u.
  - apply spec_bind; [apply Hstmt|]. intros [v|]; [|apply spec_ret]. need. intros e. apply spec_write_u.
  - apply spec_block.
  - need. intros s. need. intros s'. apply spec_write_u.
  - need. intros e. destruct e; [need; intros s; apply spec_write_u|].
    assert (W : spec (let* s := need (link_str src l) in write_str en s false;; ret tt)) by (need; intros s; apply spec_write_u).
    destruct (pl_links (en_plat en)); [|exact W]. destruct (rg_link (en_reg en)) as [h|] eqn:E; [|exact W].
    unfold link_. need. intros href. need. intros label. need. intros title. apply spec_bind; [apply spec_invoke, Hlink; reflexivity | intros; apply spec_ret].
Qed.
Lemma spec_node src n tr : spec (node_ K en src n tr).
Proof.
  unfold node_. apply spec_bind; [apply spec_upd, (fr_trim F)|]. intros _. need. intros h. apply spec_bind; [apply spec_upd, (fr_hint F)|]. intros _.
  apply spec_bind; [|intros; apply spec_node_body]. apply spec_upd. intros s Hs. destruct (r_end s) as [e|]; [|split; [exact Hs | apply (fr_refl F)]].
  destruct (th_after e); [|apply (fr_end F), Hs].
  destruct (fr_trim F (mkTrim true (ts_end (r_trim s))) s Hs) as [H1 H2]. destruct (fr_end F None _ H1) as [H3 H4].
  split; [exact H3 | exact (fr_trans F _ _ _ H2 H4)].
Qed.
End Unary.
