(** * FailItems: items, blocks, partials and documents fail as Spec_Fail says. *)
From Coq Require Import Lia String.
From Verif Require Import Str Lexer Json Ast ErrInfo Parser Render Helpers Registry StrFacts SynPath Spec_Lexer Spec_Values ValueFacts Spec_Helpers LookupFacts
  Spec_Render Spec_Blocks Spec_Calls CycleFacts HashFacts Props_Values Props_Blocks Spec_Source SynBlock Spec_Sem SemFacts SemItems Spec_Fail FailFacts.
Open Scope nat_scope. Open Scope list_scope.

(** a run that fails after adding [out] to the output *)
Definition fell (st st' : rst) (out : str) : Prop := concat (r_out st') = concat (r_out st) ++ out.
Lemma fell_same st st' : same_out st st' -> fell st st' [].
Proof. unfold same_out, fell. intros ->. rewrite app_nil_r. reflexivity. Qed.
Lemma fell_after scs act ppl st s1 st' o out : went scs act ppl st s1 o -> fell s1 st' out -> fell st st' (o ++ out).
Proof. unfold fell. intros (_ & _ & H1) H2. rewrite H2, H1, app_assoc. reflexivity. Qed.
Lemma try_err {A} (m : M A) K en (f : A -> hprog) st e st' : m st = stopped e st' -> mcatch m (fun r => run K en (htry f r)) st = stopped e st'.
Proof. intros H. unfold mcatch. rewrite H. destruct e; reflexivity. Qed.

(** iterations of which one fails *)
Inductive rounds_fail (body : M unit) : list scope -> rst -> stop -> rst -> Prop :=
| rf_here sc scs st err s1 : body (up_scopes (sc :: r_scopes st) st) = stopped err s1 -> rounds_fail body (sc :: scs) st err s1
| rf_later sc scs st s1 err s : body (up_scopes (sc :: r_scopes st) st) = ROk tt s1 -> r_scopes s1 = sc :: r_scopes st ->
    rounds_fail body scs (up_scopes (r_scopes st) s1) err s -> rounds_fail body (sc :: scs) st err s.
Lemma arr_rounds_fail K en t len err l : forall i sc st s, i + length l = len -> arr_like sc ->
  rounds_fail (template_ K en t) (number (array_scope len) i l) st err s ->
  run K en (each_arr t len i l pop_end) (up_scopes (sc :: r_scopes st) st) = stopped err s.
Proof.
  induction l as [|v l IH]; intros i sc st s Hl Hs Hr; cbn [number] in Hr; [inversion Hr|].
  cbn [each_arr run]. rewrite bind_upd. cbn [r_scopes up_scopes]. rewrite (arr_set _ _ _ _ _ Hs).
  set (len0 := i + length (v :: l)) in *. rewrite <- Hl in *. fold len0 in Hr.
  replace (i =? len0 - 1) with (S i =? len0) by (unfold len0; cbn [length]; apply eq_true_iff_eq; rewrite !Nat.eqb_eq; lia).
  change (mkScope (Some v) _) with (array_scope len0 i v).
  change (up_scopes (array_scope len0 i v :: r_scopes st) (up_scopes (sc :: r_scopes st) st)) with (up_scopes (array_scope len0 i v :: r_scopes st) st).
  inversion Hr as [sc0 its st0 e0 s1 E1|sc0 its st0 s1 e0 s0 E1 E2 E3 H1 H2]; subst.
  - apply try_err. exact E1.
  - rewrite try_ret. rewrite (bind_ok _ _ _ _ _ E1). rewrite <- (IH (S i) (array_scope len0 i v) (up_scopes (r_scopes st) s1) s);
      [|unfold len0; simpl; lia|right; eexists _, _, _; reflexivity|exact E3].
    cbn [r_scopes up_scopes]. f_equal. rewrite <- E2. destruct s1; reflexivity.
Qed.
Lemma obj_rounds_fail K en t len err l : forall i sc st s, i + length l = len -> obj_like sc ->
  rounds_fail (template_ K en t) (number (object_scope len) i l) st err s ->
  run K en (each_obj t i l pop_end) (up_scopes (sc :: r_scopes st) st) = stopped err s.
Proof.
  induction l as [|[k v] l IH]; intros i sc st s Hl Hs Hr; cbn [number] in Hr; [inversion Hr|].
  cbn [each_obj run]. rewrite bind_upd. cbn [r_scopes up_scopes]. rewrite (obj_set _ _ _ _ _ _ Hs).
  set (len0 := i + length ((k, v) :: l)) in *. rewrite <- Hl in *. fold len0 in Hr.
  replace (match l with [] => true | _ => false end) with (S i =? len0) by (unfold len0; apply eq_true_iff_eq; rewrite Nat.eqb_eq; destruct l; cbn [length]; split; intros; try reflexivity; try discriminate; lia).
  change (mkScope (Some v) _) with (object_scope len0 i (k, v)).
  change (up_scopes (object_scope len0 i (k, v) :: r_scopes st) (up_scopes (sc :: r_scopes st) st)) with (up_scopes (object_scope len0 i (k, v) :: r_scopes st) st).
  inversion Hr as [sc0 its st0 e0 s1 E1|sc0 its st0 s1 e0 s0 E1 E2 E3 H1 H2]; subst.
  - apply try_err. exact E1.
  - rewrite try_ret. rewrite (bind_ok _ _ _ _ _ E1). rewrite <- (IH (S i) (object_scope len0 i (k, v)) (up_scopes (r_scopes st) s1) s);
      [|unfold len0; simpl; lia|right; eexists _, _, _, _; reflexivity|exact E3].
    cbn [r_scopes up_scopes]. f_equal. rewrite <- E2. destruct s1; reflexivity.
Qed.

Section Items.
Variables (w : world) (en : env).
Hypothesis Ep : en_plat en = w_plat w.
Hypothesis Er : en_reg en = w_reg w.
Hypothesis Ed : en_root en = w_data w.
Hypothesis Hw : forall h s, exists n, en_write en h s = WOk n.
Hypothesis Hf : fits w.
Notation pe := (pl_penv (w_plat w)).
Notation nm := (en_name en).

Definition item_bad (scs : list scope) (act : list site) (pb : option (list item)) (s e : bool) (i : item) (out : str) (err : stop) : Prop :=
  forall src n, node_is Loose pe src n i -> regular w i -> forall ppl, pb_is w pb ppl -> exists N, forall k st tr, N <= k -> at_state scs act st -> r_partials st = ppl ->
  ts_start tr || end_after st = s -> ts_end tr = e ->
  exists st', node_ (tie k) en src n tr st = stopped err st' /\ fell st st' out.
Definition items_bad (scs : list scope) (act : list site) (pb : option (list item)) (s e : bool) (l : list item) (out : str) (err : stop) : Prop :=
  forall src ns A, Forall2 (node_is Loose pe src) ns l -> Forall (regular w) l -> (A = true -> flat l) ->
  forall ppl, pb_is w pb ppl -> exists N, forall k st prev hint, N <= k -> at_state scs act st -> r_partials st = ppl -> (prev <> None -> hint = None) ->
  (l <> [] -> (match prev with Some b => b | None => A || opt_after hint end) || end_after st = s) ->
  exists st', iter_nodes src (step (tie k) en src A e) prev hint ns st = stopped err st' /\ fell st st' out.
Definition body_bad (scs : list scope) (act : list site) (pb : option (list item)) (s : bool) (src : str) (n : node) (out : str) (err : stop) : Prop :=
  forall ppl, pb_is w pb ppl -> exists N, forall k st, N <= k -> at_state scs act st -> r_partials st = ppl -> end_after st = false -> (hint_after st = true -> s = true) ->
  exists st', template_ (tie k) en (mkTpl src n) st = stopped err st' /\ fell st st' out.
Definition rounds_bad (its scs : list scope) (act : list site) (pb : option (list item)) (s e : bool) (l : list item) (out : str) (err : stop) : Prop :=
  forall src n, body_node w src n s e l -> s = true \/ quiet_body w l -> forall ppl, pb_is w pb ppl -> exists N, forall k st, N <= k -> at_state scs act st -> r_partials st = ppl -> end_after st = false -> (hint_after st = true -> s = true) ->
  exists st', rounds_fail (template_ (tie k) en (mkTpl src n)) its st err st' /\ fell st st' out.
(** in place of a block *)
Definition else_then (t : tpl) (p : hprog) : hprog :=
  HInverse t (htry (fun o => match o with Some u => HTemplate u (htry (fun _ => p)) | None => p end)).
Definition else_bad (scs : list scope) (act : list site) (pb : option (list item)) (bs : list branch) (m' : tildes) (out : str) (err : stop) : Prop :=
  forall src b c m body, block_is w src b c m body bs m' -> regular w (IBlock false c m body bs m') -> forall ppl, pb_is w pb ppl ->
  exists N, forall k st p, N <= k -> at_state scs act st -> r_partials st = ppl -> end_after st = false -> (hint_after st = true -> tl_after m = true) ->
  exists st', run (tie k) en (else_then (mkTpl src (NBlock b)) p) st = stopped err st' /\ fell st st' out.

Lemma body_fails scs act pb s e l src n out err : items_bad scs act pb s e l out err -> body_node w src n s e l -> body_bad scs act pb s src n out err.
Proof.
  intros H (b & m & hc & -> & Hm & Hc & Hn & Hr & Es & Ee & Ea & Hfl). intros ppl Hppl. destruct (H src (b_nodes b) s Hn Hr Hfl ppl Hppl) as (N & HN). exists N. intros k st Hk Hs Hpb He Hh.
  destruct (HN k st None (r_hint st) Hk Hs Hpb ltac:(congruence)) as (st' & E & F).
  { intros _. rewrite He, orb_false_r. change (opt_after (r_hint st)) with (hint_after st). destruct s; [reflexivity|]. destruct (hint_after st); [|reflexivity]. exfalso. discriminate (Hh eq_refl). }
  rewrite (template_step _ _ _ _ _ _ _ Hm Hc), Es, Ee. exists st'. split; [apply bind_err; exact E|exact F].
Qed.

(** ** Items in a row *)
Lemma items_here scs act pb s e i l out err : item_bad scs act pb s (next_before e l) i out err -> items_bad scs act pb s e (i :: l) out err.
Proof.
  intros H1 src ns A Hn Hr Hfl ppl Hppl. inversion Hn as [|n x ns0 xs Hn1 Hn2]; subst. inversion Hr as [|x xs Hr1 Hr2]; subst.
  destruct (H1 src n Hn1 Hr1 ppl Hppl) as (N1 & G1). exists (S N1). intros k st prev hint Hk Hs Hpb Hph Hst. destruct k as [|k]; [lia|].
  pose proof (trim_of _ _ _ _ _ Hn1) as Tn. rewrite (iter_cons src _ prev hint n ns0 _ st Tn).
  2: { intros m r E. subst ns0. inversion Hn2; subst. match goal with X : node_is _ _ _ m _ |- _ => rewrite (trim_of _ _ _ _ _ X) end. discriminate. }
  unfold step at 1. cbn [tie k_node ts_start ts_end].
  match goal with |- context [node_ (tie k) en src n ?tr] => destruct (G1 k st tr ltac:(lia) Hs Hpb) as (st1 & E1 & F1) end.
  - rewrite <- Hst by discriminate. cbn [ts_start]. destruct prev as [b|]; cbn [andb]; [rewrite orb_false_r; reflexivity | rewrite (orb_comm (opt_after hint)); reflexivity].
  - cbn [ts_end]. inversion Hn2; subst; [reflexivity|]. match goal with X : node_is _ _ _ ?m _ |- _ => rewrite (trim_of _ _ _ _ _ X) end. cbn [th_before andb next_before]. apply orb_false_r.
  - exists st1. split; [apply bind_err; exact E1|exact F1].
Qed.
Lemma items_later scs act pb pb1 s e i l o out err : item_good w en scs act pb pb1 s (next_before e l) i o -> items_bad scs act pb1 (after i) e l out err -> items_bad scs act pb s e (i :: l) (o ++ out) err.
Proof.
  intros H1 H2 src ns A Hn Hr Hfl ppl Hppl. inversion Hn as [|n x ns0 xs Hn1 Hn2]; subst. inversion Hr as [|x xs Hr1 Hr2]; subst.
  destruct (H1 src n Hn1 Hr1 ppl Hppl) as (N1 & pp1 & Hpp1 & G1). destruct (H2 src ns0 A Hn2 Hr2 ltac:(intros HA; exact (flat_tail _ _ (Hfl HA))) pp1 Hpp1) as (N2 & G2).
  exists (S N1 + N2). intros k st prev hint Hk Hs Hpb Hph Hst. destruct k as [|k]; [lia|].
  pose proof (trim_of _ _ _ _ _ Hn1) as Tn. rewrite (iter_cons src _ prev hint n ns0 _ st Tn).
  2: { intros m r E. subst ns0. inversion Hn2; subst. match goal with X : node_is _ _ _ m _ |- _ => rewrite (trim_of _ _ _ _ _ X) end. discriminate. }
  unfold step at 1. cbn [tie k_node ts_start ts_end].
  match goal with |- context [node_ (tie k) en src n ?tr] => destruct (G1 k st tr ltac:(lia) Hs Hpb) as (st1 & E1 & M1 & F1 & Q1) end.
  - rewrite <- Hst by discriminate. cbn [ts_start]. destruct prev as [b|]; cbn [andb]; [rewrite orb_false_r; reflexivity | rewrite (orb_comm (opt_after hint)); reflexivity].
  - cbn [ts_end]. inversion Hn2; subst; [reflexivity|]. match goal with X : node_is _ _ _ ?m _ |- _ => rewrite (trim_of _ _ _ _ _ X) end. cbn [th_before andb next_before]. apply orb_false_r.
  - rewrite (bind_ok _ _ _ _ _ E1). change (mkKnot (node_ (tie k)) (call_ (tie k)) (stmt_ (tie k))) with (tie (S k)).
    rewrite (blocky_of _ _ _ _ _ Hn1). destruct (G2 (S k) st1 (if is_blocky i then None else Some (th_after (mkHint (before i) (open_after i)))) (match prev with Some _ => hint | None => None end)) as (st2 & E2 & F2).
    + lia.
    + apply M1.
    + apply M1.
    + intros _. destruct prev; [apply Hph; discriminate | reflexivity].
    + intros Hl. rewrite F1. replace (match prev with Some _ => hint | None => None end) with (@None trim_hint) by (destruct prev; [symmetry; apply Hph; discriminate | reflexivity]).
      cbn [opt_after th_after]. rewrite orb_false_r. destruct i; cbn [is_blocky ends after open_after orb]; rewrite ?orb_false_r; try reflexivity.
      * destruct A; [|reflexivity]. destruct l as [|j l]; [contradiction|]. discriminate (flat_head _ _ _ (Hfl eq_refl)).
      * destruct A; [destruct l as [|j l]; [contradiction|]; discriminate (flat_head _ _ _ (Hfl eq_refl))|]. inversion Hr1; subst; auto.
    + exists st2. split; [exact E2|]. exact (fell_after _ _ _ _ _ _ _ _ M1 F2).
Qed.

(** ** Leaves *)
Lemma leaf_bad scs act pb s e i out err :
  (forall src n, node_is Loose pe src n i -> regular w i -> forall ppl, pb_is w pb ppl -> exists N, forall k st, N <= k -> at_state scs act st -> r_partials st = ppl -> r_trim st = mkTrim s e -> end_after st = false -> hint_after st = open_after i ->
     exists st', node_body (tie k) en src n st = stopped err st' /\ fell st st' out) ->
  item_bad scs act pb s e i out err.
Proof.
  intros H src n Hn Hr ppl Hppl. destruct (H src n Hn Hr ppl Hppl) as (N & HN). exists N. intros k st tr Hk Hs Hpb Es Ee. pose proof (trim_of _ _ _ _ _ Hn) as Tn. rewrite (node_prep _ _ _ _ _ _ _ Tn).
  destruct (prep_facts tr (mkHint (before i) (open_after i)) st scs act Hs) as (P1 & P2 & P3 & P4 & P5 & P6). rewrite Es, Ee in P4.
  destruct (HN k _ Hk P1 ltac:(congruence) P4) as (st' & E & F); [unfold end_after; rewrite P6; reflexivity|unfold hint_after; rewrite P5; reflexivity|]. exists st'. split; [exact E|]. unfold fell in *. rewrite F, P3. reflexivity.
Qed.
Lemma call_item_bad scs act pb s e triple m c err : call_fails w nm scs act c err -> item_bad scs act pb s e (ICall triple m false c) [] err.
Proof.
  intros Hc. apply leaf_bad. intros src n Hn _ ppl Hppl. inversion Hn as [|c0 tr0 m0 p0 x0 u0 Hc0 He Ht Hstr| | | | | | | ]; subst.
  destruct (fails_run w en Ep Er Ed Hf nm scs eq_refl) as (_ & _ & _ & _ & V). destruct (V _ _ _ Hc _ _ _ _ Hc0) as (N & HN).
  exists (S N). intros k st Hk Hs _ _ _ _. destruct k as [|k]; [lia|]. destruct (HN k st ltac:(lia) Hs) as (st' & E & O). exists st'. split; [|apply fell_same, O]. cbn [node_body]. apply bind_err.
  cbn [tie k_stmt]. unfold stmt_. replace (c_partial c0) with false by (inversion Hc0; reflexivity). exact E.
Qed.
Lemma dyn_item_bad scs act pb s e triple m p c xs hs err : call_fails w nm scs act c err -> item_bad scs act pb s e (IDyn triple m p c xs hs) [] err.
Proof.
  intros Hc. apply leaf_bad. intros src n Hn _ ppl Hppl. inversion Hn as [| |c0 tr0 m0 p0 x0 xs0 hs0 u0 Hc0 He Ht Hstr| | | | | | ]; subst.
  destruct (dyn_shape w _ _ _ _ _ _ Hc0) as (sub & Epc & Es & Hsub & _).
  destruct (fails_run w en Ep Er Ed Hf nm scs eq_refl) as (_ & _ & _ & _ & V). destruct (V _ _ _ Hc _ _ _ _ Hsub) as (N & HN).
  exists (S (S N)). intros k st Hk Hs _ _ _ _. destruct k as [|[|k]]; [lia|lia|]. cbn [node_body]. destruct p.
  - destruct (HN k st ltac:(lia) Hs) as (st' & E & O). exists st'. split; [|apply fell_same, O]. apply bind_err. cbn [tie k_stmt]. unfold stmt_. rewrite Epc. apply bind_err. unfold render_partial. apply bind_err.
    unfold get_partial_name. rewrite Es. apply bind_err. cbn [tie k_stmt]. unfold stmt_. replace (c_partial sub) with false by (inversion Hsub; reflexivity). exact E.
  - destruct (HN k st ltac:(lia) Hs) as (st' & E & O). exists st'. split; [|apply fell_same, O]. apply bind_err. rewrite (dyn_stmt w en _ _ _ _ _ _ _ _ Hc0 Es). exact E.
Qed.
Lemma link_invoke_bad scs act pb s e parts f err : pl_links (w_plat w) = true -> rg_link (w_reg w) = Some f ->
  (forall src c sp1 l1 sp2 l2 sp3 l3, c_args c = [VJson (JStr (link_arg parts 0)) sp1 l1; VJson (JStr (link_arg parts 1)) sp2 l2; VJson (JStr (link_arg parts 2)) sp3 l3] -> c_params c = [] ->
    exists N, forall k st, N <= k -> at_state scs act st -> exists st', invoke (tie k) en src (lit "link") (ByRef f) c None None None st = stopped err st' /\ same_out st st') ->
  item_bad scs act pb s e (ILink false parts) [] err.
Proof.
  intros Hl Hr H. apply leaf_bad. intros src nd Hn _ ppl Hppl. inversion Hn as [| | | | | |l0 e0 p0 Hk| | ]; subst. destruct Hk as (H1 & H2 & H3 & H4 & H5 & H6).
  set (c := link_call src l0 (link_arg parts 0) (link_arg parts 1) (link_arg parts 2)). destruct (H src c _ _ _ _ _ _ eq_refl eq_refl) as (N & HN).
  exists N. intros k st Hk Hs _ _ _ _. destruct (HN k st Hk Hs) as (st' & E & O). exists st'. split; [|apply fell_same, O].
  cbn [node_body]. rewrite H1. cbn [need]. rewrite bind_ret, Ep, Er, Hl, Hr. unfold link_. rewrite H4, H5, H6. cbn [need]. rewrite !bind_ret. fold c. change link_name with (lit "link"). apply bind_err. exact E.
Qed.
Lemma link_cycle_bad scs act pb s e parts f : pl_links (w_plat w) = true -> rg_link (w_reg w) = Some f -> 32 <= count_site (SHelper (lit "link")) act ->
  item_bad scs act pb s e (ILink false parts) [] (Fails (EHelperCycle (lit "link"))).
Proof.
  intros Hl Hr Hct. eapply link_invoke_bad; [exact Hl|exact Hr|]. intros src c sp1 l1 sp2 l2 sp3 l3 _ _. exists 0. intros k st _ (_ & _ & Hs). exists st. split; [|reflexivity]. unfold invoke. cbv zeta. rewrite bind_get.
  replace (stack_max <=? _) with true by (symmetry; apply Nat.leb_le; rewrite Hs; exact Hct). reflexivity.
Qed.
Lemma link_bad scs act pb s e parts f err : pl_links (w_plat w) = true -> rg_link (w_reg w) = Some f -> count_site (SHelper (lit "link")) act < 32 ->
  acts w scs f (lit "link") [JStr (link_arg parts 0); JStr (link_arg parts 1); JStr (link_arg parts 2)] [] None None false (halt err) ->
  item_bad scs act pb s e (ILink false parts) [] err.
Proof.
  intros Hl Hr Hct Hfl. eapply link_invoke_bad; [exact Hl|exact Hr|]. intros src c sp1 l1 sp2 l2 sp3 l3 Ca Cp.
  destruct (invoke_runs w en Ep Er Hf scs act src (lit "link") (ByRef f) f c None None None
    [JStr (link_arg parts 0); JStr (link_arg parts 1); JStr (link_arg parts 2)] [] [] (SHelper (lit "link")) eq_refl (or_intror eq_refl) Hct) as (N & HN).
  { rewrite Ca. exists 0. intros k st i _ _. eexists. reflexivity. }
  { rewrite Cp. exists 0. intros k _. constructor. }
  { split; [constructor|apply Permutation_refl]. }
  exists N. intros k st Hk Hs. destruct (HN k st Hk Hs) as (ctx & (_ & _ & X1 & X2 & X3 & X4 & X5) & E). eexists. rewrite E.
  split; [apply bind_err; rewrite (Hfl ctx None X1 X2 X3 X4 X5 no_block (tie k) en _ (sees_at w en Ep Er Ed _ _ _ (at_push _ _ _ (SHelper (lit "link")) Hs))); apply halt_run|reflexivity].
Qed.
Lemma raw_bad scs act pb s e n xs hs m x m' f y err : assoc n (rg_helpers (w_reg w)) = Some f -> stripped (tl_after m) (tl_before m') x y ->
  helper_call_fails w nm scs act true n f xs hs (Some y) None err -> item_bad scs act pb s e (IRaw (Call (HdName n) [] xs hs) m x m') [] err.
Proof.
  intros Hh Hy Hc. apply leaf_bad. intros src nd Hnd _ ppl Hppl. inversion Hnd as [| | | | | | |b x0 m0 s0 m0' t u0 Hcl Hb Ht Hx Hcs Htr Hcs' Hbs| ]; subst.
  destruct (call_shape _ _ _ _ _ _ _ _ _ Hcl) as (p & C1 & C2 & Hpp & Hxs & Hhs). destruct (name_simple src p n Hpp) as (P2 & P3).
  destruct (fails_run w en Ep Er Ed Hf nm scs eq_refl) as (_ & _ & _ & V & _).
  destruct (V _ _ _ _ _ _ _ _ _ Hc src (b_call b) Hxs Hhs (ByName n) (Some (mkTpl src (NBlock b))) (or_introl (ex_intro _ n (conj eq_refl Hh))) ltac:(split; [reflexivity|discriminate])) as (N & HN).
  exists N. intros k st Hk Hs _ _ _ _. cbn [node_body]. unfold block_. rewrite C1, C2, P2, Hb.
  assert (ER : raw_text src b st = ROk y (up_end (Some (hint_of m')) st)).
  { apply stripped_trim in Hy. unfold trimmed in Hy. unfold raw_text. rewrite Ht. cbn [node_str]. rewrite Hx, Hcs', Htr. cbn [need]. rewrite bind_ret, bind_ret, bind_ret, bind_upd. cbn [hint_of th_after th_before]. rewrite Hy. reflexivity. }
  assert (ER' : (let* s := raw_text src b in ret (Some s)) st = ROk (Some y) (up_end (Some (hint_of m')) st)) by (rewrite (bind_ok _ _ _ _ _ ER); reflexivity).
  rewrite (bind_ok _ _ _ _ _ ER'), P3. cbn [need]. rewrite bind_ret, bind_get.
  set (st1 := up_end (Some (hint_of m')) st). assert (Hs1 : at_state scs act st1) by exact Hs. rewrite (a_helper_at w en Er scs act _ n f Hs1 Hh).
  destruct (HN k st1 Hk Hs1) as (st' & E & O). exists st'. split; [apply bind_err; exact E|apply fell_same, O].
Qed.

(** ** Blocks *)
Lemma block_bad scs act pb s e c m body bs m' out err :
  (forall src b, block_is w src b c m body bs m' -> regular w (IBlock false c m body bs m') -> forall ppl, pb_is w pb ppl -> exists N, forall k st, N <= k -> at_state scs act st -> r_partials st = ppl -> end_after st = false -> hint_after st = tl_after m ->
     exists st', block_ (tie k) en src b st = stopped err st' /\ fell st st' out) ->
  item_bad scs act pb s e (IBlock false c m body bs m') out err.
Proof.
  intros H. apply leaf_bad. intros src n Hn Hr ppl Hppl. inversion Hn as [| | | | | | | |b p0 x0 m0 body0 bs0 m0' u0 B1 B2 B3 B4 B5 B6 B7]; subst.
  destruct (H src b) with (ppl := ppl) as (N & HN); [unfold block_is; auto 10 | exact Hr | exact Hppl |]. exists N. intros k st Hk Hs Hpb _ He Hh. apply HN; assumption.
Qed.
Lemma main_fails scs act pb src b c m body bs m' out err : block_is w src b c m body bs m' -> regular w (IBlock false c m body bs m') ->
  items_bad scs act pb (tl_after m) (tl_before (next_tag bs m')) body out err -> forall ppl, pb_is w pb ppl ->
  exists N, forall k st, N <= k -> at_state scs act st -> r_partials st = ppl -> end_after st = false -> hint_after st = tl_after m ->
  exists st', template_ (tie k) en (mkTpl src (NBlock b)) st = stopped err st' /\ fell st st' out.
Proof.
  intros (B1 & B2 & B3 & B4 & B5 & B6) Hr Hg ppl Hppl. destruct (body_fails _ _ _ _ _ _ _ _ _ _ Hg (main_node w _ _ _ _ _ _ _ B3 B5 B6 Hr) ppl Hppl) as (N & HN). exists N. intros k st Hk Hs Hpb Hend Hhint.
  apply HN; try assumption. congruence.
Qed.
(** a helper that cannot be run *)
Lemma block_invoke_bad scs act pb s e n xs hs m body bs m' name tg f blk prop err :
  target_is w tg f -> helper_call_fails w nm scs act blk name f xs hs None prop err ->
  (forall src b p k st, path_is src p (HdName n) [] -> c_partial (b_call b) = false -> c_target (b_call b) = TPath p -> b_raw b = false -> at_state scs act st ->
     path_str src p = Some n -> path_is_simple p = true ->
     block_ (tie k) en src b st = (invoke (tie k) en src name tg (b_call b) (if blk then Some (mkTpl src (NBlock b)) else None) None prop ;; ret tt) st) ->
  item_bad scs act pb s e (IBlock false (Call (HdName n) [] xs hs) m body bs m') [] err.
Proof.
  intros Htg Hc Hblk. apply block_bad. intros src b Hbk Hr ppl Hppl. destruct Hbk as (B1 & B2 & _). destruct (call_shape _ _ _ _ _ _ _ _ _ B1) as (p & C1 & C2 & Hp & Ha & Hhs). destruct (name_simple src p n Hp) as (P2 & P3).
  destruct (fails_run w en Ep Er Ed Hf nm scs eq_refl) as (_ & _ & _ & V & _).
  destruct (V _ _ _ _ _ _ _ _ _ Hc src (b_call b) Ha Hhs tg (if blk then Some (mkTpl src (NBlock b)) else None) Htg) as (N & HN).
  { destruct blk; split; try congruence; discriminate. }
  exists N. intros k st Hk Hs _ _ _. destruct (HN k st Hk Hs) as (st' & E & O). exists st'. split; [|apply fell_same, O].
  rewrite (Hblk src b p k st Hp C1 C2 B2 Hs P3 P2). apply bind_err. exact E.
Qed.
Lemma block_helper_bad scs act pb s e n xs hs m body bs m' f err :
  assoc n (rg_helpers (w_reg w)) = Some f -> helper_call_fails w nm scs act true n f xs hs None None err ->
  item_bad scs act pb s e (IBlock false (Call (HdName n) [] xs hs) m body bs m') [] err.
Proof.
  intros Hh Hc. eapply (block_invoke_bad scs act pb s e n xs hs m body bs m' n (ByName n) f true); [left; eauto|exact Hc|].
  intros src b p k st Hpp C1 C2 Hb Hs P3 P2. unfold block_. rewrite C1, C2, P2, Hb, bind_ret, P3. cbn [need]. rewrite bind_ret, bind_get, (a_helper_at w en Er scs act _ n f Hs Hh). reflexivity.
Qed.
Lemma block_handler_bad scs act pb s e n xs hs m body bs m' v f err :
  assoc n (rg_helpers (w_reg w)) = None -> path_value (w_data w) scs (HdName n) [] v -> rg_block_missing (w_reg w) = Some f ->
  helper_call_fails w nm scs act true (lit "blockHelperMissing") f xs hs None (Some (n, v)) err ->
  item_bad scs act pb s e (IBlock false (Call (HdName n) [] xs hs) m body bs m') [] err.
Proof.
  intros Hh Hv Hbm Hc. eapply (block_invoke_bad scs act pb s e n xs hs m body bs m' (lit "blockHelperMissing") (ByRef f) f true); [right; reflexivity|exact Hc|].
  intros src b p k st Hpp C1 C2 Hb Hs P3 P2. unfold block_. rewrite C1, C2, P2, Hb, bind_ret, P3. cbn [need]. rewrite bind_ret, bind_get, (no_helper_at w en Er scs act _ n Hs Hh).
  unfold block_missing. rewrite C2. cbn [tp_src]. rewrite (bind_ok _ _ _ _ _ (look_some w en Ed src p (HdName n) [] scs act st v Hpp Hs Hv)), Er, Hbm, P3. cbn [need]. rewrite bind_ret. reflexivity.
Qed.
Lemma block_missing_handler_bad scs act pb s e n xs hs m body bs m' f err :
  assoc n (rg_helpers (w_reg w)) = None -> no_value (w_data w) scs (HdName n) [] -> rg_missing (w_reg w) = Some f ->
  helper_call_fails w nm scs act false (lit "helperMissing") f xs hs None None err ->
  item_bad scs act pb s e (IBlock false (Call (HdName n) [] xs hs) m body bs m') [] err.
Proof.
  intros Hh Hv Hbm Hc. eapply (block_invoke_bad scs act pb s e n xs hs m body bs m' (lit "helperMissing") (ByRef f) f false); [right; reflexivity|exact Hc|].
  intros src b p k st Hpp C1 C2 Hb Hs P3 P2. unfold block_. rewrite C1, C2, P2, Hb, bind_ret, P3. cbn [need]. rewrite bind_ret, bind_get, (no_helper_at w en Er scs act _ n Hs Hh).
  unfold block_missing. rewrite C2. cbn [tp_src]. rewrite (bind_ok _ _ _ _ _ (look_none w en Ed src p (HdName n) [] scs act st Hpp Hs Hv)), Er, Hbm. reflexivity.
Qed.
Lemma block_strict_bad scs act pb s e n xs hs m body bs m' :
  assoc n (rg_helpers (w_reg w)) = None -> rg_missing (w_reg w) = None -> rg_strict (w_reg w) = true -> no_value (w_data w) scs (HdName n) [] ->
  item_bad scs act pb s e (IBlock false (Call (HdName n) [] xs hs) m body bs m') [] (Fails (EHelperNotFound n)).
Proof.
  intros Hh Hm Hst Hv. apply block_bad. intros src b Hbk Hr ppl Hppl. destruct Hbk as (B1 & B2 & _). destruct (call_shape _ _ _ _ _ _ _ _ _ B1) as (p & C1 & C2 & Hp & _). destruct (name_simple src p n Hp) as (P2 & P3).
  exists 0. intros k st _ Hs _ _ _. exists st. split; [|apply fell_same; reflexivity].
  unfold block_. rewrite C1, C2, P2, B2, bind_ret, P3. cbn [need]. rewrite bind_ret, bind_get, (no_helper_at w en Er scs act _ n Hs Hh). unfold block_missing. rewrite C2. cbn [tp_src].
  rewrite (bind_ok _ _ _ _ _ (look_none w en Ed src p (HdName n) [] scs act st Hp Hs Hv)), Er, Hm, Hst, P3. cbn [need]. rewrite bind_ret. reflexivity.
Qed.
Lemma plain_block_bad scs act pb s e n xs hs m body bs m' v out err : assoc n (rg_helpers (w_reg w)) = None -> rg_block_missing (w_reg w) = None -> path_value (w_data w) scs (HdName n) [] v ->
  items_bad scs act pb (tl_after m) (tl_before (next_tag bs m')) body out err ->
  item_bad scs act pb s e (IBlock false (Call (HdName n) [] xs hs) m body bs m') out err.
Proof.
  intros Hh Hbm Hv Hg. apply block_bad. intros src b Hbk Hr ppl Hppl. destruct (main_fails _ _ _ _ _ _ _ _ _ _ _ _ Hbk Hr Hg ppl Hppl) as (N & HN). destruct Hbk as (B1 & B2 & _).
  destruct (call_shape _ _ _ _ _ _ _ _ _ B1) as (p & C1 & C2 & Hp & _). destruct (name_simple src p n Hp) as (P2 & P3).
  exists N. intros k st Hk Hs Hpb Hend Hhint. destruct (HN k st Hk Hs Hpb Hend Hhint) as (st' & E & F). exists st'. split; [|exact F].
  unfold block_. rewrite C1, C2, P2, B2, bind_ret, P3. cbn [need]. rewrite bind_ret, bind_get, (no_helper_at w en Er scs act _ n Hs Hh). unfold block_missing. rewrite C2. cbn [tp_src].
  rewrite (bind_ok _ _ _ _ _ (look_some w en Ed src p (HdName n) [] scs act st v Hp Hs Hv)), Er, Hbm. exact E.
Qed.
(** a block of a helper with one argument *)
Lemma helper_bad scs act pb s e n f x hs v m body bs m' out err :
  builtin (w_plat w) n f -> block_arg w scs act n x hs v ->
  (forall src b, block_is w src b (Call (HdName n) [] [x] hs) m body bs m' -> regular w (IBlock false (Call (HdName n) [] [x] hs) m body bs m') -> forall ppl, pb_is w pb ppl ->
     exists N, forall k st ctx, N <= k -> hc_args ctx = [v] -> at_state scs (SBlock n :: act) st -> r_partials st = ppl -> end_after st = false -> hint_after st = tl_after m ->
     exists st', run (tie k) en (f ctx (Some (mkTpl src (NBlock b)))) st = stopped err st' /\ fell st st' out) ->
  item_bad scs act pb s e (IBlock false (Call (HdName n) [] [x] hs) m body bs m') out err.
Proof.
  intros Hbi ((f' & Hb' & Hh) & Hc & Hv & pairs & ps & Hhv & Hm) H. assert (f' = f) as -> by (unfold builtin in *; congruence).
  apply block_bad. intros src b Hb Hr ppl Hppl. destruct (H src b Hb Hr ppl Hppl) as (N1 & H1). pose proof Hb as Hb2. destruct Hb2 as (B1 & B2 & _).
  destruct (call_shape _ _ _ _ _ _ _ _ _ B1) as (p & C1 & C2 & Hp & Ha & Hhs). destruct (name_simple src p n Hp) as (P2 & P3).
  destruct (values_run w en Ep Er Ed Hf scs (SBlock n :: act)) as (_ & VA & VH & _).
  destruct (invoke_runs w en Ep Er Hf scs act src n (ByName n) f (b_call b) (Some (mkTpl src (NBlock b))) None None [v] pairs ps (SBlock n) eq_refl (or_introl (ex_intro _ n (conj eq_refl Hh))) Hc) as (N2 & H2).
  { apply (VA [x] [v]); [constructor; [exact Hv | constructor] | exact Ha]. }
  { exact (VH _ _ Hhv _ _ Hhs). }
  { exact Hm. }
  exists (N1 + N2). intros k st Hk Hs Hpb Hend Hhint. destruct (H2 k st ltac:(lia) Hs) as (ctx & Hctx & Ei).
  destruct (H1 k (up_stack (SBlock n :: r_stack st) st) ctx ltac:(lia)) as (st' & Er' & F); [apply Hctx | apply at_push, Hs | exact Hpb | exact Hend | exact Hhint |].
  exists st'. split; [|exact F]. unfold block_. rewrite C1, C2, P2, B2. rewrite bind_ret, P3. cbn [need]. rewrite bind_ret, bind_get, (a_helper_at w en Er scs act _ n f Hs Hh).
  apply bind_err. rewrite Ei. apply bind_err. exact Er'.
Qed.
(** ** Branches *)
Definition inv_bad (scs : list scope) (act : list site) (src : str) (alt : option node) (cs : list node) (err : stop) : Prop :=
  exists N, forall k st, N <= k -> at_state scs act st -> exists st', inverse_go (tie k) en src alt cs st = stopped err st' /\ same_out st st'.
Lemma skip_bad scs act src b cs x m' rest alt err : branches_are Loose pe src (b :: cs) (x :: rest) m' -> cond_fails w scs act x ->
  inv_bad scs act src (match br_cond x with None => Some b | Some _ => alt end) cs err -> inv_bad scs act src alt (b :: cs) err.
Proof.
  intros H Hx (N & HN). inversion H as [|b0 cond m body bs0 rest0 m0 H1 H2 H3 H4 H5 H6 H7]; subst. cbn [br_cond fst] in *. destruct cond as [c|].
  - destruct (Hx c eq_refl) as (v & Hv & Nv). destruct (cond_runs w en Ep Er Ed Hf _ _ _ _ _ _ H1 Hv) as (N' & HN'). exists (N + N'). intros k st Hk Hs. cbn [inverse_go]. rewrite (cond_not_empty w _ _ _ H1).
    rewrite (bind_ok _ _ _ _ _ (HN' k st ltac:(lia) Hs)). destruct v as [v|]; [|apply HN; [lia | exact Hs]]. rewrite holds_spec in Nv. destruct (is_truthy v); [contradiction Nv; reflexivity|]. apply HN; [lia | exact Hs].
  - exists N. intros k st Hk Hs. cbn [inverse_go]. rewrite H1. apply HN; assumption.
Qed.
Lemma cond_bad scs act src m' b post c err pre : forall cs alt, branches_are Loose pe src cs (pre ++ b :: post) m' -> Forall (cond_fails w scs act) pre -> br_cond b = Some c -> call_fails w nm scs act c err ->
  inv_bad scs act src alt cs err.
Proof.
  induction pre as [|x pre IH]; intros cs alt H Hp Hc Hv; cbn [app] in H; inversion H as [|b0 cond m body bs0 rest0 m0 H1 H2 H3 H4 H5 H6 H7]; subst.
  - cbn [br_cond fst] in Hc. subst cond. destruct (fails_run w en Ep Er Ed Hf nm scs eq_refl) as (_ & _ & _ & _ & V). destruct (V _ _ _ Hv _ _ _ _ H1) as (N & HN). exists (S N). intros k st Hk Hs. destruct k as [|k]; [lia|].
    destruct (HN k st ltac:(lia) Hs) as (st' & E & O). exists st'. split; [|exact O]. cbn [inverse_go]. rewrite (cond_not_empty w _ _ _ H1). apply bind_err. exact E.
  - inversion Hp; subst. apply (skip_bad _ _ _ _ _ _ _ _ _ _ H); [assumption|]. eapply IH; eassumption.
Qed.
Lemma else_cond_bad scs act pb bs m' err : cond_breaks w nm scs act bs err -> else_bad scs act pb bs m' [] err.
Proof.
  intros [pre x post y Ebs Hp Hc Hv] src b c m body (B1 & B2 & B3 & B4 & B5 & B6) Hr ppl Hppl. subst bs. destruct (cond_bad scs act src m' x post y err pre (b_conds b) None B4 Hp Hc Hv) as (N & HN).
  exists N. intros k st q Hk Hs _ _ _. destruct (HN k st Hk Hs) as (st' & E & O). exists st'. split; [|apply fell_same, O]. unfold else_then. cbn [run]. apply try_err. unfold inverse. cbn [tp_node tp_src]. apply bind_err. exact E.
Qed.
Lemma else_body_bad scs act pb bs m' x post out err : else_branch w scs act bs (Some (x, post)) ->
  items_bad scs act pb (tl_after (br_tildes x)) (tl_before (next_tag post m')) (br_body x) out err -> else_bad scs act pb bs m' out err.
Proof.
  intros He Hg src b c m body (B1 & B2 & B3 & B4 & B5 & B6) Hr ppl Hppl. destruct (inverse_found w en Ep Er Ed Hf _ _ _ _ _ _ _ B4 He) as (o & Fo & N1 & H1). destruct o as [n|]; [|contradiction Fo].
  destruct Fo as (cs & Hcs). assert (exists pre, bs = pre ++ x :: post) as (pre & Ebs) by (inversion He; subst; eauto).
  pose proof (branch_node w _ _ _ _ _ _ _ _ _ _ _ Hr Ebs Hcs) as Hn. destruct (body_fails _ _ _ _ _ _ _ _ _ _ Hg Hn ppl Hppl) as (N2 & H2). exists (N1 + N2). intros k st q Hk Hs Hpb Hend Hhint.
  inversion Hr as [| | | | | | | | | |c0 m0 body0 bs0 m0' R1 R2 R3 R4 R5 R6 R7|]; subst bs c0 m0 body0 bs0 m0'.
  assert (In x (pre ++ x :: post)) as Hin by (apply in_or_app; right; left; reflexivity).
  destruct (H2 k st ltac:(lia) Hs Hpb Hend) as (st' & E & F).
  { intros T. destruct (R3 (Hhint T)) as [_ X]. rewrite Forall_forall in X. exact (X _ Hin). }
  exists st'. split; [|exact F]. unfold else_then. cbn [run]. rewrite try_ret. unfold inverse. cbn [tp_node tp_src].
  assert (E0 : (let* n := inverse_go (tie k) en src None (b_conds b) in ret (match n with Some n => Some (mkTpl src n) | None => None end)) st = ROk (Some (mkTpl src n)) st) by (rewrite (bind_ok _ _ _ _ _ (H1 k st ltac:(lia) Hs)); reflexivity).
  rewrite (bind_ok _ _ _ _ _ E0). cbn [run]. apply try_err. exact E.
Qed.
Lemma if_bad scs act pb s e x hs m body bs m' v out err : block_arg w scs act (lit "if") x hs v ->
  ~ falsy v -> items_bad scs (SBlock (lit "if") :: act) pb (tl_after m) (tl_before (next_tag bs m')) body out err ->
  item_bad scs act pb s e (IBlock false (Call (HdName (lit "if")) [] [x] hs) m body bs m') out err.
Proof.
  intros Hv Hfv Hg. eapply helper_bad; [reflexivity | exact Hv |]. intros src b Hbk Hr ppl Hppl. destruct (main_fails _ _ _ _ _ _ _ _ _ _ _ _ Hbk Hr Hg ppl Hppl) as (N & HN).
  exists N. intros k st ctx Hk Ha Hs Hpb Hend Hhint. destruct (HN k st Hk Hs Hpb Hend Hhint) as (st' & E & F). exists st'. split; [|exact F].
  unfold if_helper. args Ha. rewrite <- truthy_falsy in Hfv. destruct (is_truthy v); [|congruence]. cbn [run]. apply try_err. exact E.
Qed.
Lemma if_else_bad scs act pb s e x hs m body bs m' v out err : block_arg w scs act (lit "if") x hs v ->
  falsy v -> else_bad scs (SBlock (lit "if") :: act) pb bs m' out err ->
  item_bad scs act pb s e (IBlock false (Call (HdName (lit "if")) [] [x] hs) m body bs m') out err.
Proof.
  intros Hv Hfv Hg. eapply helper_bad; [reflexivity | exact Hv |]. intros src b Hbk Hr ppl Hppl. destruct (Hg _ _ _ _ _ Hbk Hr ppl Hppl) as (N & HN).
  exists N. intros k st ctx Hk Ha Hs Hpb Hend Hhint. destruct (HN k st (HRet None) Hk Hs Hpb Hend ltac:(congruence)) as (st' & E & F). exists st'. split; [|exact F].
  unfold if_helper. args Ha. rewrite <- truthy_falsy in Hfv. rewrite Hfv. exact E.
Qed.
Lemma unless_bad scs act pb s e x hs m body bs m' v out err : block_arg w scs act (lit "unless") x hs v ->
  falsy v -> items_bad scs (SBlock (lit "unless") :: act) pb (tl_after m) (tl_before (next_tag bs m')) body out err ->
  item_bad scs act pb s e (IBlock false (Call (HdName (lit "unless")) [] [x] hs) m body bs m') out err.
Proof.
  intros Hv Hfv Hg. eapply helper_bad; [reflexivity | exact Hv |]. intros src b Hbk Hr ppl Hppl. destruct (main_fails _ _ _ _ _ _ _ _ _ _ _ _ Hbk Hr Hg ppl Hppl) as (N & HN).
  exists N. intros k st ctx Hk Ha Hs Hpb Hend Hhint. destruct (HN k st Hk Hs Hpb Hend Hhint) as (st' & E & F). exists st'. split; [|exact F].
  unfold unless_helper. args Ha. rewrite <- truthy_falsy in Hfv. rewrite Hfv. cbn [negb]. cbn [run]. apply try_err. exact E.
Qed.
Lemma unless_else_bad scs act pb s e x hs m body bs m' v out err : block_arg w scs act (lit "unless") x hs v ->
  ~ falsy v -> else_bad scs (SBlock (lit "unless") :: act) pb bs m' out err ->
  item_bad scs act pb s e (IBlock false (Call (HdName (lit "unless")) [] [x] hs) m body bs m') out err.
Proof.
  intros Hv Hfv Hg. eapply helper_bad; [reflexivity | exact Hv |]. intros src b Hbk Hr ppl Hppl. destruct (Hg _ _ _ _ _ Hbk Hr ppl Hppl) as (N & HN).
  exists N. intros k st ctx Hk Ha Hs Hpb Hend Hhint. destruct (HN k st (HRet None) Hk Hs Hpb Hend ltac:(congruence)) as (st' & E & F). exists st'. split; [|exact F].
  unfold unless_helper. args Ha. rewrite <- truthy_falsy in Hfv. destruct (is_truthy v); [|congruence]. exact E.
Qed.
Lemma with_bad scs act pb s e x hs m body bs m' v out err : block_arg w scs act (lit "with") x hs v ->
  v <> JNull -> items_bad (mkScope (Some v) [] :: scs) (SBlock (lit "with") :: act) pb (tl_after m) (tl_before (next_tag bs m')) body out err ->
  item_bad scs act pb s e (IBlock false (Call (HdName (lit "with")) [] [x] hs) m body bs m') out err.
Proof.
  intros Hv Hnv Hg. eapply helper_bad; [reflexivity | exact Hv |]. intros src b Hbk Hr ppl Hppl. destruct (main_fails _ _ _ _ _ _ _ _ _ _ _ _ Hbk Hr Hg ppl Hppl) as (N & HN).
  exists N. intros k st ctx Hk Ha Hs Hpb Hend Hhint. destruct (HN k (up_scopes (mkScope (Some v) [] :: r_scopes st) st) Hk (at_scope _ _ _ _ Hs) Hpb Hend Hhint) as (st' & E & F).
  exists st'. split; [|exact F].
  unfold with_helper. args Ha. assert (G : ctx_get ctx 0 = Some v) by (unfold ctx_get; rewrite Ha; reflexivity). rewrite G.
  assert (X : run (tie k) en (HPushScope scope_new (HScopeMut (set_base_value v) (HTemplate (mkTpl src (NBlock b)) (htry (fun _ => HPopScope (fun _ => HRet None)))))) st = stopped err st').
  { cbn [run]. rewrite bind_upd, bind_upd. cbn [r_scopes up_scopes]. change (set_base_value v scope_new) with (mkScope (Some v) []).
    change (up_scopes (mkScope (Some v) [] :: r_scopes st) (up_scopes (scope_new :: r_scopes st) st)) with (up_scopes (mkScope (Some v) [] :: r_scopes st) st). apply try_err. exact E. }
  destruct v; try exact X. contradiction Hnv; reflexivity.
Qed.
(** ** each *)
Lemma rounds_here sc its scs act pb s e l out err : items_bad (sc :: scs) act pb s e l out err -> rounds_bad (sc :: its) scs act pb s e l out err.
Proof.
  intros H1 src n Hn _ ppl Hppl. destruct (body_fails _ _ _ _ _ _ _ _ _ _ H1 Hn ppl Hppl) as (N1 & G1). exists N1. intros k st Hk Hs Hpb He Hh.
  destruct (G1 k (up_scopes (sc :: r_scopes st) st) Hk (at_scope _ _ _ _ Hs) Hpb He Hh) as (s1 & E1 & F1). exists s1. split; [apply rf_here; exact E1|exact F1].
Qed.
Lemma rounds_later sc its scs act pb pb1 s e l o out err : items_good w en (sc :: scs) act pb pb1 s e l o -> rounds_bad its scs act pb1 s e l out err -> rounds_bad (sc :: its) scs act pb s e l (o ++ out) err.
Proof.
  intros H1 H2 src n Hn Hq ppl Hppl. destruct (body_runs w en _ _ _ _ _ _ _ _ _ _ H1 Hn ppl Hppl) as (N1 & pp1 & Hpp1 & G1). destruct (H2 src n Hn Hq pp1 Hpp1) as (N2 & G2). exists (N1 + N2). intros k st Hk Hs Hpb He Hh.
  destruct (G1 k (up_scopes (sc :: r_scopes st) st) ltac:(lia) (at_scope _ _ _ _ Hs) Hpb He Hh) as (s1 & E1 & M1 & F1 & Q1).
  destruct (went_scope _ _ _ _ _ _ _ Hs M1) as [M1' Sc]. destruct (G2 k (up_scopes scs s1) ltac:(lia)) as (s2 & E2 & F2).
  - apply M1'.
  - apply M1'.
  - exact F1.
  - destruct Hq as [->|Hq]; [reflexivity|]. destruct s; [reflexivity|]. change (hint_after (up_scopes scs s1)) with (hint_after s1). intros T. rewrite (Q1 Hq) in T; [discriminate T|].
    change (hint_after (up_scopes (sc :: r_scopes st) st)) with (hint_after st). destruct (hint_after st); [|reflexivity]. discriminate (Hh eq_refl).
  - assert (Es : r_scopes st = scs) by apply Hs. exists s2. split; [|exact (fell_after _ _ _ _ _ _ _ _ M1' F2)].
    eapply rf_later; [exact E1 | rewrite Es; exact Sc |]. rewrite Es. exact E2.
Qed.
Lemma each_bad scs act pb s e x hs m body bs m' v its out err : block_arg w scs act (lit "each") x hs v ->
  iterations_of v its -> rounds_bad its scs (SBlock (lit "each") :: act) pb (tl_after m) (tl_before (next_tag bs m')) body out err ->
  item_bad scs act pb s e (IBlock false (Call (HdName (lit "each")) [] [x] hs) m body bs m') out err.
Proof.
  intros Hv Hit Hg. eapply helper_bad; [reflexivity | exact Hv |]. intros src b (B1 & B2 & B3 & B4 & B5 & B6) Hr ppl Hppl.
  pose proof (main_node w _ _ _ _ _ _ _ B3 B5 B6 Hr) as Hn. inversion Hr as [| | | | | | | | | |c0 m0 body0 bs0 m0' R1 R2 R3 R4 R5 R6 R7|]; subst.
  destruct (Hg src (NBlock b) Hn) with (ppl := ppl) as (N & HN); [apply R5; reflexivity|exact Hppl|].
  exists N. intros k st ctx Hk Ha Hs Hpb Hend Hhint. destruct (HN k st Hk Hs Hpb Hend ltac:(congruence)) as (st' & E & F). exists st'. split; [|exact F].
  unfold each_helper. args Ha. destruct Hit as [(l & -> & ->)|[(l & -> & ->)|(N1 & N2 & ->)]].
  - cbn [run]. rewrite bind_upd. apply arr_rounds_fail; [reflexivity | left; reflexivity | exact E].
  - cbn [run]. rewrite bind_upd. apply (obj_rounds_fail _ _ _ (length l)); [reflexivity | left; reflexivity | exact E].
  - inversion E.
Qed.
(** ** Partials *)
Lemma partial_identifier_bad scs act pb s e triple m h t xs hs : (forall n, ~ names h t n) -> path_shown h t <> lit "@partial-block" ->
  item_bad scs act pb s e (ICall triple m true (Call h t xs hs)) [] (Fails (EPartialIdentifier (path_shown h t))).
Proof.
  intros Hn Hpb. apply leaf_bad. intros src nd Hnd Hr ppl Hppl. inversion Hnd as [|c tr0 m0 p0 x0 u0 Hc Hesc Ht Hstr| | | | | | | ]; subst.
  destruct (call_shape _ _ _ _ _ _ _ _ _ Hc) as (p & C1 & C2 & Hp & _). exists 1. intros k st Hk Hs _ _ _ _. destruct k as [|k]; [lia|]. exists st. split; [|apply fell_same; reflexivity].
  cbn [node_body tie k_stmt]. apply bind_err. unfold stmt_. rewrite C1. apply bind_err.
  unfold render_partial. apply bind_err. unfold get_partial_name. rewrite C2. pose proof Hp as (_ & _ & _ & _ & _ & _ & _ & Es). rewrite Es. cbn [need]. rewrite bind_ret.
  destruct (streq (path_shown h t) partial_block) eqn:E1; [apply streq_eq in E1; contradiction (Hpb E1)|]. destruct (path_is_simple p) eqn:E2; [|reflexivity].
  destruct (simple_names _ _ _ _ Hp E2) as (n & Hnn & _). contradiction (Hn n Hnn).
Qed.
(** what the code finds for a partial *)
Lemma known_found pb ppl n : pb_is w pb ppl -> known_partial w pb n -> exists t, assoc n ppl = Some t \/ (assoc n ppl = None /\ exists te, assoc n (rg_templates (w_reg w)) = Some te /\ t = te_tpl te).
Proof.
  intros Hp Hk. destruct (assoc n ppl) as [t|] eqn:E; [exists t; left; reflexivity|]. destruct Hk as [(-> & Hn)|Hk].
  - destruct pb as [body|]; [|contradiction Hn; reflexivity]. destruct Hp as (src & b & -> & _). discriminate E.
  - destruct (assoc n (rg_templates (w_reg w))) as [te|] eqn:Ete; [|contradiction Hk; reflexivity]. exists (te_tpl te). right. eauto.
Qed.
Lemma unknown_found pb ppl n : pb_is w pb ppl -> ~ known_partial w pb n -> assoc n ppl = None /\ assoc n (rg_templates (w_reg w)) = None.
Proof.
  intros Hp Hk. split.
  - destruct pb as [body|]; [|cbn in Hp; rewrite Hp; reflexivity]. destruct Hp as (src & b & -> & _). cbn [assoc]. destruct (streq n partial_block) eqn:E; [|reflexivity].
    apply streq_eq in E. contradiction Hk. left. split; [exact E|discriminate].
  - destruct (assoc n (rg_templates (w_reg w))) eqn:E; [|reflexivity]. contradiction Hk. right. congruence.
Qed.
Lemma enter_fails' scs act pb src c xs hs n err content ppl ppl0 :
  Forall2 (param_is Loose pe src) (c_args c) xs -> Forall2 (fun kp kv => fst kp = fst kv /\ param_is Loose pe src (snd kp) (snd kv)) (c_params c) hs ->
  named en scs act src c n -> include_fails w nm scs act pb n xs hs err ->
  pb_is w pb ppl -> ppl = match content with Some u => assoc_set partial_block u ppl0 | None => ppl0 end ->
  exists N, forall k st, N <= k -> at_state scs act st -> r_partials st = ppl0 -> exists st', render_partial (tie k) en src c content st = stopped err st' /\ same_out st st'.
Proof.
  intros HA HH (N0 & Hnm) Hi Hpb Eppl.
  assert (E1 : forall st, r_partials st = ppl0 -> r_partials (enter n content st) = ppl) by (intros st E; rewrite Eppl, <- E; unfold enter; destruct content; reflexivity).
  assert (O1 : forall st, same_out st (enter n content st)) by (intros st; unfold enter, same_out; destruct content; reflexivity).
  assert (F : known_partial w pb n -> exists u, forall st, r_partials st = ppl -> exists st2, find_partial en n st st = ROk u st2 /\ same_out st st2 /\ forall scs act, at_state scs act st -> at_state scs act st2).
  { intros Hk. destruct (known_found _ _ _ Hpb Hk) as (u & Hu). exists u. intros st Est. unfold find_partial. rewrite Est. destruct Hu as [E|(E & te & Ete & Eu)]; rewrite E.
    - exists st. split; [reflexivity|]. split; [reflexivity|]. auto.
    - rewrite Er, Ete, Eu. eexists. split; [reflexivity|]. split; [reflexivity|]. intros s0 a0 H0. exact H0. }
  destruct Hi as [Hin|Hin Hk|err Hin Hk Hh|pairs err Hin Hk Hh Hx].
  - exists N0. intros k st Hk Hs _. exists st. split; [|reflexivity]. unfold render_partial. rewrite (bind_ok _ _ _ _ _ (Hnm k st Hk Hs)), bind_get.
    replace (existsb (site_eq (SPartial n)) (r_stack st)) with true; [reflexivity|]. symmetry. apply existsb_exists. exists (SPartial n). destruct Hs as (_ & _ & ->). split; [exact Hin|]. cbn. apply streq_refl.
  - exists N0. intros k st HkN Hs Hst. exists (enter n content st). split; [|apply O1]. rewrite (partial_step en k src c content scs act st n (Hnm k st HkN Hs) Hs Hin). apply bind_err.
    destruct (unknown_found _ _ _ Hpb Hk) as (X1 & X2). unfold find_partial. rewrite (E1 st Hst), X1, Er, X2. reflexivity.
  - destruct (F Hk) as (u & Fu). destruct (fails_run w en Ep Er Ed Hf nm scs eq_refl) as (_ & _ & V & _). destruct (V _ _ _ Hh src c HH) as (N & HN). exists (N0 + N). intros k st Hn Hs Hst.
    destruct (Fu _ (E1 st Hst)) as (st2 & E2 & O2 & A2). destruct (HN k st2 ltac:(lia) (A2 _ _ (enter_at n content _ _ _ Hs))) as (st' & E & O). exists st'. split; [|unfold same_out in *; rewrite O, O2, O1; reflexivity].
    rewrite (partial_step en k src c content scs act st n (Hnm k st ltac:(lia) Hs) Hs Hin), (bind_ok _ _ _ _ _ E2). unfold render_found. apply bind_err. exact E.
  - destruct (F Hk) as (u & Fu). destruct (fails_run w en Ep Er Ed Hf nm scs eq_refl) as (_ & V & _). destruct (V _ _ _ Hx src _ HA) as (N & HN).
    destruct (values_run w en Ep Er Ed Hf scs (SPartial n :: act)) as (_ & _ & VH & _). destruct (VH _ _ Hh _ _ HH) as (N2 & HN2).
    exists (N0 + N + N2). intros k st Hn Hs Hst. destruct (Fu _ (E1 st Hst)) as (st2 & E2 & O2 & A2). pose proof (A2 _ _ (enter_at n content _ _ _ Hs)) as A3.
    destruct (HN k st2 0 ltac:(lia) A3) as (st' & E & O). exists st'. split; [|unfold same_out in *; rewrite O, O2, O1; reflexivity].
    rewrite (partial_step en k src c content scs act st n (Hnm k st ltac:(lia) Hs) Hs Hin), (bind_ok _ _ _ _ _ E2). unfold render_found.
    specialize (HN2 k ltac:(lia)). destruct (Permutation_Forall2 (Permutation_sym (fit_order w Hf src c)) HN2) as (pairs' & Hp' & H').
    destruct (hash_go_runs en _ _ _ _ _ _ H' st2 [] A3) as (mm & Eh).
    assert (Eh' : hash (tie k) en src c st2 = hash_go (tie k) en src (pl_order (w_plat w) src c) [] st2) by (unfold hash; rewrite Ep; reflexivity). rewrite Eh in Eh'.
    rewrite (bind_ok _ _ _ _ _ Eh'). apply bind_err. destruct (c_args c) as [|a0 al]; [inversion HA; subst; inversion Hx|]. apply bind_err. exact E.
Qed.
Lemma enter_fails scs act pb src pt cd c h t xs hs n err content ppl ppl0 : call_is Loose pe src pt cd c (Call h t xs hs) -> partial_name h t n -> include_fails w nm scs act pb n xs hs err ->
  pb_is w pb ppl -> ppl = match content with Some u => assoc_set partial_block u ppl0 | None => ppl0 end ->
  exists N, forall k st, N <= k -> at_state scs act st -> r_partials st = ppl0 -> exists st', render_partial (tie k) en src c content st = stopped err st' /\ same_out st st'.
Proof.
  intros Hc Hnm. destruct (call_shape _ _ _ _ _ _ _ _ _ Hc) as (p & C1 & C2 & Hp & HA & HH). apply enter_fails' with (xs := xs) (hs := hs) (n := n); [exact HA|exact HH|exact (path_named en _ _ _ _ _ _ _ _ Hp C2 Hnm)].
Qed.
Lemma include_stops' scs act pb src c xs hs n d sc out err content ppl ppl0 :
  Forall2 (param_is Loose pe src) (c_args c) xs -> Forall2 (fun kp kv => fst kp = fst kv /\ param_is Loose pe src (snd kp) (snd kv)) (c_params c) hs ->
  named en scs act src c n -> ~ In (SPartial n) act -> partial_source w pb n d -> partial_args w scs act n xs hs sc ->
  items_bad (sc :: scs) (SPartial n :: act) pb false false d out err -> pb_is w pb ppl ->
  ppl = match content with Some u => assoc_set partial_block u ppl0 | None => ppl0 end ->
  exists N, forall k st, N <= k -> at_state scs act st -> r_partials st = ppl0 -> end_after st = false -> hint_after st = false ->
  exists st', render_partial (tie k) en src c content st = stopped err st' /\ fell st st' out.
Proof.
  intros HA HH (N0 & Hnm) Ha Hsrc (vs & pairs & ps & Hxs & Hhs & Hm & Esc) Hg Hpb Eppl.
  destruct (source_found w Hf _ _ _ _ Hpb Hsrc) as (u & U1 & U2 & U3 & U4 & U5).
  destruct (values_run w en Ep Er Ed Hf scs (SPartial n :: act)) as (_ & VA & VH & _). destruct (VA _ _ Hxs _ _ HA) as (N1 & H1).
  destruct (hash_of_runs w en Ep Hf _ _ _ _ _ _ (VH _ _ Hhs _ _ HH) Hm) as (N2 & H2).
  destruct (Hg (tp_src u) (children (tp_node u)) false U1 U2 ltac:(discriminate) ppl Hpb) as (N3 & H3).
  exists (N0 + N1 + N2 + N3). intros k st Hk Hs Hst Hend Hhint.
  set (st1 := enter n content st). pose proof (enter_at n content _ _ _ Hs) as A1. fold st1 in A1.
  assert (P1 : r_partials st1 = ppl) by (rewrite Eppl, <- Hst; unfold st1, enter; destruct content; reflexivity).
  assert (O1 : r_out st1 = r_out st) by (unfold st1, enter; destruct content; reflexivity).
  assert (I1 : end_after st1 = false) by (rewrite <- Hend; unfold st1, enter; destruct content; reflexivity).
  assert (J1 : r_hint st1 = r_hint st) by (unfold st1, enter; destruct content; reflexivity).
  assert (F : exists st2, find_partial en n st1 st1 = ROk u st2 /\ at_state scs (SPartial n :: act) st2 /\ r_partials st2 = ppl /\ r_out st2 = r_out st /\ end_after st2 = false /\ r_hint st2 = r_hint st).
  { unfold find_partial. rewrite P1. destruct U5 as [E|(E & te & Ete & Eu)]; rewrite E.
    - exists st1. split; [reflexivity|]. auto 10.
    - rewrite Er, Ete, <- Eu. eexists. split; [reflexivity|]. split; [exact A1|]. auto 10. }
  destruct F as (st2 & E2 & A2 & P2 & O2 & I2 & J2).
  destruct (H2 k st2 ltac:(lia) A2) as (mh & Eh). destruct (H1 k st2 0 ltac:(lia) A2) as (ma & Ea).
  set (st3 := up_scopes (sc :: r_scopes st2) st2). pose proof (at_scope _ _ sc _ A2) as A3. fold st3 in A3.
  destruct (H3 k st3 None (r_hint st3) ltac:(lia) A3 P2 ltac:(congruence)) as (st4 & E4 & M4).
  { intros _. change (end_after st3) with (end_after st2). rewrite I2. change (r_hint st3) with (r_hint st2). rewrite J2. change (opt_after (r_hint st)) with (hint_after st). rewrite Hhint. reflexivity. }
  exists st4. split.
  - rewrite (partial_step en k src c content scs act st n (Hnm k st ltac:(lia) Hs) Hs Ha). fold st1. rewrite (bind_ok _ _ _ _ _ E2). unfold render_found. rewrite (bind_ok _ _ _ _ _ Eh). cbn [fst].
    assert (ES : (match c_args c with [] => ret (mkScope (Some (JObj ps)) []) | _ => let* a := arguments (tie k) en src 0 (c_args c) in match fst a with x :: _ => ret (mkScope (Some x) ps) | [] => ret (mkScope (Some (JObj ps)) []) end end) st2 = ROk sc st2).
    { destruct (c_args c) as [|a0 al] eqn:Eca.
      - inversion HA; subst. inversion Hxs; subst. reflexivity.
      - rewrite (bind_ok _ _ _ _ _ Ea). cbn [fst]. rewrite Esc. unfold partial_scope. destruct vs; reflexivity. }
    rewrite (bind_ok _ _ _ _ _ ES), bind_upd, bind_get. fold st3. apply bind_err. rewrite plain_step. exact E4.
  - unfold fell in *. rewrite M4. change (r_out st3) with (r_out st2). rewrite O2. reflexivity.
Qed.
Lemma include_stops scs act pb src pt cd c h t xs hs n d sc out err content ppl ppl0 :
  call_is Loose pe src pt cd c (Call h t xs hs) -> partial_name h t n -> ~ In (SPartial n) act -> partial_source w pb n d -> partial_args w scs act n xs hs sc ->
  items_bad (sc :: scs) (SPartial n :: act) pb false false d out err -> pb_is w pb ppl ->
  ppl = match content with Some u => assoc_set partial_block u ppl0 | None => ppl0 end ->
  exists N, forall k st, N <= k -> at_state scs act st -> r_partials st = ppl0 -> end_after st = false -> hint_after st = false ->
  exists st', render_partial (tie k) en src c content st = stopped err st' /\ fell st st' out.
Proof.
  intros Hc Hnm. destruct (call_shape _ _ _ _ _ _ _ _ _ Hc) as (p & C1 & C2 & Hp & HA & HH). apply include_stops'; [exact HA|exact HH|exact (path_named en _ _ _ _ _ _ _ _ Hp C2 Hnm)].
Qed.
Lemma partial_enter_bad scs act pb s e triple m h t xs hs n err : partial_name h t n -> include_fails w nm scs act pb n xs hs err ->
  item_bad scs act pb s e (ICall triple m true (Call h t xs hs)) [] err.
Proof.
  intros Hnm Hi. apply leaf_bad. intros src nd Hn Hr ppl Hppl. inversion Hn as [|c tr0 m0 p0 x0 u0 Hc Hesc Ht Hstr| | | | | | | ]; subst.
  destruct (enter_fails _ _ _ _ _ _ _ _ _ _ _ _ _ None ppl ppl Hc Hnm Hi Hppl eq_refl) as (N & HN). exists (S N). intros k st Hk Hs Hpb _ _ _. destruct k as [|k]; [lia|].
  destruct (HN k st ltac:(lia) Hs Hpb) as (st' & E & O). exists st'. split; [|apply fell_same, O].
  cbn [node_body tie k_stmt]. apply bind_err. unfold stmt_. replace (c_partial c) with true by (inversion Hc; reflexivity). apply bind_err. exact E.
Qed.
Lemma partial_bad scs act pb s e triple m h t xs hs n d sc out err :
  partial_name h t n -> ~ In (SPartial n) act -> partial_source w pb n d -> partial_args w scs act n xs hs sc ->
  items_bad (sc :: scs) (SPartial n :: act) pb false false d out err ->
  item_bad scs act pb s e (ICall triple m true (Call h t xs hs)) out err.
Proof.
  intros Hnm Ha Hsrc Hargs Hg. apply leaf_bad. intros src nd Hn Hr ppl Hppl. inversion Hn as [|c tr0 m0 p0 x0 u0 Hc Hesc Ht Hstr| | | | | | | ]; subst. inversion Hr as [| |t1 m1 c1 Rm| | | | | | | | | ]; subst.
  destruct (include_stops _ _ _ _ _ _ _ _ _ _ _ _ _ _ _ _ None ppl ppl Hc Hnm Ha Hsrc Hargs Hg Hppl eq_refl) as (N & HN). exists (S N). intros k st Hk Hs Hpb _ He Hh. destruct k as [|k]; [lia|].
  destruct (HN k st ltac:(lia) Hs Hpb He) as (st' & E & F); [rewrite Hh; exact Rm|]. exists st'. split; [|exact F].
  cbn [node_body tie k_stmt]. apply bind_err. unfold stmt_. replace (c_partial c) with true by (inversion Hc; reflexivity). apply bind_err. exact E.
Qed.
Lemma dyn_partial_enter_bad scs act pb s e triple m c v xs hs n err : call_value w scs act c v -> shown (pl_fstr (w_plat w)) (match v with Some v => v | None => JNull end) n -> include_fails w nm scs act pb n xs hs err ->
  item_bad scs act pb s e (IDyn triple m true c xs hs) [] err.
Proof.
  intros Hv Hx Hi. apply leaf_bad. intros src nd Hn Hr ppl Hppl. inversion Hn as [| |c0 tr0 m0 p0 x0 xs0 hs0 u0 Hc Hesc Ht Hstr| | | | | | ]; subst.
  destruct (dyn_shape w _ _ _ _ _ _ Hc) as (sub & Epc & Esub & Hsub & HA & HH). pose proof (dyn_named w en Ep Er Ed Hf _ _ _ _ _ _ _ _ _ _ Hc Hv Hx) as Hnm.
  destruct (enter_fails' _ _ _ _ _ _ _ _ _ None ppl ppl HA HH Hnm Hi Hppl eq_refl) as (N & HN). exists (S N). intros k st Hk Hs Hpb _ _ _. destruct k as [|k]; [lia|].
  destruct (HN k st ltac:(lia) Hs Hpb) as (st' & E & O). exists st'. split; [|apply fell_same, O].
  cbn [node_body tie k_stmt]. apply bind_err. unfold stmt_. rewrite Epc. apply bind_err. exact E.
Qed.
Lemma dyn_partial_bad scs act pb s e triple m c v xs hs n d sc out err :
  call_value w scs act c v -> shown (pl_fstr (w_plat w)) (match v with Some v => v | None => JNull end) n -> ~ In (SPartial n) act -> partial_source w pb n d -> partial_args w scs act n xs hs sc ->
  items_bad (sc :: scs) (SPartial n :: act) pb false false d out err ->
  item_bad scs act pb s e (IDyn triple m true c xs hs) out err.
Proof.
  intros Hv Hx Ha Hsrc Hargs Hg. apply leaf_bad. intros src nd Hn Hr ppl Hppl. inversion Hn as [| |c0 tr0 m0 p0 x0 xs0 hs0 u0 Hc Hesc Ht Hstr| | | | | | ]; subst. inversion Hr as [| | | |t1 m1 c1 xs1 hs1 Rm| | | | | | | ]; subst.
  destruct (dyn_shape w _ _ _ _ _ _ Hc) as (sub & Epc & Esub & Hsub & HA & HH). pose proof (dyn_named w en Ep Er Ed Hf _ _ _ _ _ _ _ _ _ _ Hc Hv Hx) as Hnm.
  destruct (include_stops' _ _ _ _ _ _ _ _ _ _ _ _ None ppl ppl HA HH Hnm Ha Hsrc Hargs Hg Hppl eq_refl) as (N & HN). exists (S N). intros k st Hk Hs Hpb _ He Hh. destruct k as [|k]; [lia|].
  destruct (HN k st ltac:(lia) Hs Hpb He) as (st' & E & F); [rewrite Hh; exact Rm|]. exists st'. split; [|exact F].
  cbn [node_body tie k_stmt]. apply bind_err. unfold stmt_. rewrite Epc. apply bind_err. exact E.
Qed.
Lemma block_pb pb ppl body src b : pb_is w pb ppl -> Forall2 (node_is Loose pe src) (b_nodes b) body -> Forall (regular w) body -> calm_end body -> (quiet_docs w -> existsb loud body = false) ->
  pb_is w (Some body) (assoc_set partial_block (mkTpl src (NBlock b)) ppl).
Proof.
  intros Hppl H1 H2 H3 H4. exists src, b. split; [|auto]. destruct pb as [body0|]; [destruct Hppl as (s0 & b0 & -> & _); reflexivity|]. cbn in Hppl. rewrite Hppl. reflexivity.
Qed.
Lemma partial_block_enter_bad scs act pb s e n xs hs m body bs m' err : include_fails w nm scs act (Some body) n xs hs err ->
  item_bad scs act pb s e (IBlock true (Call (HdName n) [] xs hs) m body bs m') [] err.
Proof.
  intros Hi. apply leaf_bad. intros src nd Hn Hr ppl Hppl. inversion Hn as [| | | | | | | |b p0 x0 m0 body0 bs0 m0' u0 B1 B2 B3 B4 B5 B6 B7]; subst. inversion Hr as [| | | | | | | | | | |c1 m1 b1 bs1 m1' R1 R2 R3 R4 R5 R6]; subst.
  destruct (enter_fails _ _ _ _ _ _ _ _ _ _ _ _ _ (Some (mkTpl src (NBlock b))) _ ppl B1 (name_is n) Hi (block_pb _ _ _ _ _ Hppl B3 R6 R4 R5) eq_refl) as (N & HN).
  exists N. intros k st Hk Hs Hpb _ _ _. destruct (HN k st Hk Hs Hpb) as (st' & E & O). exists st'. split; [|apply fell_same, O].
  cbn [node_body]. unfold block_. replace (c_partial (b_call b)) with true by (inversion B1; reflexivity). exact E.
Qed.
Lemma partial_block_bad scs act pb s e n xs hs m body bs m' d sc out err :
  ~ In (SPartial n) act -> partial_source w (Some body) n d -> partial_args w scs act n xs hs sc ->
  items_bad (sc :: scs) (SPartial n :: act) (Some body) false false d out err ->
  item_bad scs act pb s e (IBlock true (Call (HdName n) [] xs hs) m body bs m') out err.
Proof.
  intros Ha Hsrc Hargs Hg. apply leaf_bad. intros src nd Hn Hr ppl Hppl. inversion Hn as [| | | | | | | |b p0 x0 m0 body0 bs0 m0' u0 B1 B2 B3 B4 B5 B6 B7]; subst. inversion Hr as [| | | | | | | | | | |c1 m1 b1 bs1 m1' R1 R2 R3 R4 R5 R6]; subst.
  destruct (include_stops _ _ _ _ _ _ _ _ _ _ _ _ _ _ _ _ (Some (mkTpl src (NBlock b))) _ ppl B1 (name_is n) Ha Hsrc Hargs Hg (block_pb _ _ _ _ _ Hppl B3 R6 R4 R5) eq_refl) as (N & HN).
  exists N. intros k st Hk Hs Hpb _ He Hh. destruct (HN k st Hk Hs Hpb He) as (st' & E & F); [rewrite Hh; exact R1|]. exists st'. split; [|exact F].
  cbn [node_body]. unfold block_. replace (c_partial (b_call b)) with true by (inversion B1; reflexivity). exact E.
Qed.

(** ** Block helpers of one's own *)
Definition steps_bad (act : list site) (pb : option (list item)) (m : tildes) (body : list item) (bs : list branch) (m' : tildes) (cur : list scope) (l : list hstep) (out : str) (err : stop) : Prop :=
  forall src b c, block_is w src b c m body bs m' -> regular w (IBlock false c m body bs m') -> orderly w m body bs l ->
  forall v ppl, pb_is w pb ppl -> exists N, forall k st, N <= k -> at_state cur act st -> r_partials st = ppl -> end_after st = false ->
    (renderings l = 0 \/ (hint_after st = true -> tl_after m = true)) ->
  exists st', run (tie k) en (in_steps (mkTpl src (NBlock b)) l v) st = stopped err st' /\ fell st st' out.
Lemma bad_stop act pb m body bs m' cur err l : steps_bad act pb m body bs m' cur (Halt err :: l) [] (Fails err).
Proof. intros src b c _ _ _ v ppl _. exists 0. intros k st _ _ _ _ _. exists st. split; [reflexivity|]. unfold fell. now rewrite app_nil_r. Qed.
Lemma bad_say act pb m body bs m' cur x esc l o err : solid x -> steps_bad act pb m body bs m' cur l o err ->
  steps_bad act pb m body bs m' cur (Say x esc :: l) ((if esc then written (rg_escape (w_reg w)) x else x) ++ o) err.
Proof.
  intros Hx H src b c Hb Hr Ho v ppl Hppl. destruct (H src b c Hb Hr (orderly_skip w _ _ _ _ _ Ho eq_refl) v ppl Hppl) as (N & HN). exists N. intros k st Hk Hs Hpb He Hh.
  destruct (r_trim st) as [ts te] eqn:Et. destruct (write_runs w en Er Hw x esc ts te cur act st x Hs Et (solid_strip _ _ _ Hx)) as (n & st1 & E & M & R1 & R2).
  pose proof (moved_went _ _ _ _ _ _ M Hpb) as M1. destruct (HN k st1 Hk) as (st' & E' & F); [apply M1|apply M1|unfold end_after in *; rewrite R2; exact He|unfold hint_after in *; rewrite R1; exact Hh|].
  exists st'. split; [|exact (fell_after _ _ _ _ _ _ _ _ M1 F)]. cbn [in_steps run]. rewrite try_ret, (bind_ok _ _ _ _ _ E). exact E'.
Qed.
Lemma bad_put act pb m body bs m' cur x l o err : steps_bad act pb m body bs m' cur l o err -> steps_bad act pb m body bs m' cur (Put x :: l) (x ++ o) err.
Proof.
  intros H src b c Hb Hr Ho v ppl Hppl. destruct (H src b c Hb Hr (orderly_skip w _ _ _ _ _ Ho eq_refl) v ppl Hppl) as (N & HN). exists N. intros k st Hk Hs Hpb He Hh.
  destruct (Hw (r_out st) x) as (n & E). set (st1 := up_out (r_out st ++ [x]) st).
  destruct (HN k st1 Hk) as (st' & E' & F); [exact Hs|exact Hpb|exact He|exact Hh|].
  exists st'. split.
  - cbn [in_steps run]. rewrite try_ret. unfold bind at 1. unfold emit. rewrite E. exact E'.
  - unfold fell in *. rewrite F. cbn. rewrite concat_app. cbn. now rewrite app_nil_r, app_assoc.
Qed.
Lemma bad_show act pb m body bs m' cur l o err : items_bad cur act pb (tl_after m) (tl_before (next_tag bs m')) body o err -> steps_bad act pb m body bs m' cur (Show :: l) o err.
Proof.
  intros Hg src b c Hb Hr Ho v ppl Hppl. pose proof Hb as (B1 & B2 & B3 & B4 & B5 & B6).
  destruct (body_fails _ _ _ _ _ _ _ _ _ _ Hg (main_node w _ _ _ _ _ _ _ B3 B5 B6 Hr) ppl Hppl) as (N & HN). exists N. intros k st Hk Hs Hpb He Hh.
  destruct (HN k st Hk Hs Hpb He) as (st' & E & F); [destruct Hh as [Hh|Hh]; [discriminate Hh|exact Hh]|]. exists st'. split; [|exact F]. cbn [in_steps run]. apply try_err. exact E.
Qed.
Lemma bad_shown act pb pb1 m body bs m' cur l o o' err : items_good w en cur act pb pb1 (tl_after m) (tl_before (next_tag bs m')) body o -> steps_bad act pb1 m body bs m' cur l o' err ->
  steps_bad act pb m body bs m' cur (Show :: l) (o ++ o') err.
Proof.
  intros Hg H src b c Hb Hr Ho v ppl Hppl. pose proof Hb as (B1 & B2 & B3 & B4 & B5 & B6).
  destruct (body_runs w en _ _ _ _ _ _ _ _ _ _ Hg (main_node w _ _ _ _ _ _ _ B3 B5 B6 Hr) ppl Hppl) as (N1 & pp1 & Hpp1 & G1).
  destruct (H src b c Hb Hr (orderly_more w _ _ _ _ _ Ho eq_refl) v pp1 Hpp1) as (N & HN). exists (N1 + N). intros k st Hk Hs Hpb He Hh.
  destruct (G1 k st ltac:(lia) Hs Hpb He) as (st1 & E1 & M1 & F1 & Q1); [destruct Hh as [Hh|Hh]; [discriminate Hh|exact Hh]|].
  destruct (HN k st1 ltac:(lia)) as (st' & E' & F); [apply M1|apply M1|exact F1|eapply orderly_next; [exact Ho|reflexivity|left; reflexivity|exact Hh|exact Q1]|].
  exists st'. split; [|exact (fell_after _ _ _ _ _ _ _ _ M1 F)]. cbn [in_steps run]. rewrite try_ret, (bind_ok _ _ _ _ _ E1). exact E'.
Qed.
Lemma bad_else act pb m body bs m' cur l o err : else_bad cur act pb bs m' o err -> steps_bad act pb m body bs m' cur (Otherwise :: l) o err.
Proof.
  intros Hg src b c Hb Hr Ho v ppl Hppl. destruct (Hg _ _ _ _ _ Hb Hr ppl Hppl) as (N & HN). exists N. intros k st Hk Hs Hpb He Hh.
  apply (HN k st (in_steps (mkTpl src (NBlock b)) l v) Hk Hs Hpb He). destruct Hh as [Hh|Hh]; [discriminate Hh|exact Hh].
Qed.
Lemma bad_elsed act pb pb1 m body bs m' cur r l o o' err : else_branch w cur act bs r -> else_good w en cur act pb pb1 m' r o -> steps_bad act pb1 m body bs m' cur l o' err ->
  steps_bad act pb m body bs m' cur (Otherwise :: l) (o ++ o') err.
Proof.
  intros He0 Hg H src b c Hb Hr Ho v ppl Hppl. pose proof Hb as (B1 & B2 & B3 & B4 & B5 & B6). destruct (inverse_found w en Ep Er Ed Hf _ _ _ _ _ _ _ B4 He0) as (u & Fo & N1 & H1).
  assert (E0 : forall k st, N1 <= k -> at_state cur act st -> run (tie k) en (in_steps (mkTpl src (NBlock b)) (Otherwise :: l) v) st
     = match u with Some n => (template_ (tie k) en (mkTpl src n) ;; run (tie k) en (in_steps (mkTpl src (NBlock b)) l v)) st | None => run (tie k) en (in_steps (mkTpl src (NBlock b)) l v) st end).
  { intros k st Hk Hs. cbn [in_steps run]. rewrite try_ret. unfold inverse. cbn [tp_node tp_src].
    assert (E : (let* n := inverse_go (tie k) en src None (b_conds b) in ret (match n with Some n => Some (mkTpl src n) | None => None end)) st = ROk (match u with Some n => Some (mkTpl src n) | None => None end) st) by (rewrite (bind_ok _ _ _ _ _ (H1 k st Hk Hs)); reflexivity).
    rewrite (bind_ok _ _ _ _ _ E). destruct u as [n|]; [cbn [run]; apply try_ret | reflexivity]. }
  destruct r as [[x post]|], u as [n|]; try contradiction.
  - destruct Fo as (cs & Hcs). assert (exists pre, bs = pre ++ x :: post) as (pre & Ebs) by (inversion He0; subst; eauto).
    pose proof (branch_node w _ _ _ _ _ _ _ _ _ _ _ Hr Ebs Hcs) as Hn. destruct (Hg src n Hn ppl Hppl) as (N2 & pp1 & Hpp1 & G1).
    destruct (H src b c Hb Hr (orderly_more w _ _ _ _ _ Ho eq_refl) v pp1 Hpp1) as (N & HN). exists (N1 + N2 + N). intros k st Hk Hs Hpb He Hh. rewrite E0 by (try lia; exact Hs).
    assert (In x bs) as Hin by (rewrite Ebs; apply in_or_app; right; left; reflexivity).
    destruct (G1 k st ltac:(lia) Hs Hpb He) as (st1 & E1 & M1 & F1 & Q1).
    { destruct Hh as [Hh|Hh]; [discriminate Hh|]. intros T. specialize (Hh T). inversion Hr as [| | | | | | | | | |c0 m0 body0 bs0 m0' R1 R2 R3 R4 R5 R6 R7|]; subst. destruct (R3 Hh) as [_ X]. rewrite Forall_forall in X. exact (X _ Hin). }
    destruct (HN k st1 ltac:(lia)) as (st' & E' & F); [apply M1|apply M1|exact F1|eapply orderly_next; [exact Ho|reflexivity|right; exists x; split; [exact Hin|reflexivity]|exact Hh|exact Q1]|].
    exists st'. split; [|exact (fell_after _ _ _ _ _ _ _ _ M1 F)]. rewrite (bind_ok _ _ _ _ _ E1). exact E'.
  - cbn [else_good] in Hg. destruct Hg as [-> ->]. destruct (H src b c Hb Hr (orderly_more w _ _ _ _ _ Ho eq_refl) v ppl Hppl) as (N & HN). exists (N1 + N). intros k st Hk Hs Hpb He Hh. rewrite E0 by (try lia; exact Hs).
    apply HN; [lia|exact Hs|exact Hpb|exact He|]. destruct Hh as [Hh|Hh]; [discriminate Hh|right; exact Hh].
Qed.
Lemma bad_enter act pb m body bs m' cur sc l o err : steps_bad act pb m body bs m' (sc :: cur) l o err -> steps_bad act pb m body bs m' cur (Enter sc :: l) o err.
Proof.
  intros H src b c Hb Hr Ho v ppl Hppl. destruct (H src b c Hb Hr (orderly_skip w _ _ _ _ _ Ho eq_refl) v ppl Hppl) as (N & HN). exists N. intros k st Hk Hs Hpb He Hh.
  destruct (HN k (up_scopes (sc :: r_scopes st) st) Hk (at_scope _ _ _ _ Hs) Hpb He Hh) as (st' & E & F). exists st'. split; [|exact F]. cbn [in_steps run]. rewrite bind_upd. exact E.
Qed.
Lemma bad_alter act pb m body bs m' cur sc g l o err : steps_bad act pb m body bs m' (g sc :: cur) l o err -> steps_bad act pb m body bs m' (sc :: cur) (Alter g :: l) o err.
Proof.
  intros H src b c Hb Hr Ho v ppl Hppl. destruct (H src b c Hb Hr (orderly_skip w _ _ _ _ _ Ho eq_refl) v ppl Hppl) as (N & HN). exists N. intros k st Hk Hs Hpb He Hh.
  destruct (HN k (up_scopes (g sc :: cur) st) Hk) as (st' & E & F); [destruct Hs as (X1 & X2 & X3); split; auto|exact Hpb|exact He|exact Hh|]. exists st'. split; [|exact F]. cbn [in_steps run]. rewrite bind_upd.
  assert (Es : r_scopes st = sc :: cur) by apply Hs. rewrite Es. exact E.
Qed.
Lemma bad_leave act pb m body bs m' cur sc l o err : steps_bad act pb m body bs m' cur l o err -> steps_bad act pb m body bs m' (sc :: cur) (Leave :: l) o err.
Proof.
  intros H src b c Hb Hr Ho v ppl Hppl. destruct (H src b c Hb Hr (orderly_skip w _ _ _ _ _ Ho eq_refl) v ppl Hppl) as (N & HN). exists N. intros k st Hk Hs Hpb He Hh.
  destruct (HN k (up_scopes cur st) Hk) as (st' & E & F); [destruct Hs as (X1 & X2 & X3); split; auto|exact Hpb|exact He|exact Hh|]. exists st'. split; [|exact F]. cbn [in_steps run].
  assert (Es : r_scopes st = sc :: cur) by apply Hs. rewrite bind_get, Es, bind_upd. exact E.
Qed.
Lemma own_bad scs act pb s e n xs hs m body bs m' name f prop vs pairs ps l v out err :
  block_by w scs n name f prop -> count_site (SBlock name) act < 32 ->
  args_value w scs (SBlock name :: act) xs vs -> hash_value w scs (SBlock name :: act) hs pairs -> map_of ps pairs ->
  performs w scs f name vs ps prop l v -> orderly w m body bs l ->
  steps_bad (SBlock name :: act) pb m body bs m' scs l out err ->
  item_bad scs act pb s e (IBlock false (Call (HdName n) [] xs hs) m body bs m') out err.
Proof.
  intros Hby Hc Hv Hhv Hm Hp Ho H. apply block_bad. intros src b Hb Hr ppl Hppl. destruct (H src b _ Hb Hr Ho v ppl Hppl) as (N1 & H1). pose proof Hb as Hb2. destruct Hb2 as (B1 & B2 & _).
  destruct (call_shape _ _ _ _ _ _ _ _ _ B1) as (p & C1 & C2 & Hpp & Ha & Hhs). destruct (name_simple src p n Hpp) as (P2 & P3).
  destruct (values_run w en Ep Er Ed Hf scs (SBlock name :: act)) as (_ & VA & VH & _).
  destruct (by_invoke w en Er Ed scs act src b p n xs hs m body bs m' name f prop Hby Hb Hpp C1 C2) as (tg & Htg & Hblk).
  destruct (invoke_runs w en Ep Er Hf scs act src name tg f (b_call b) (Some (mkTpl src (NBlock b))) None prop vs pairs ps (SBlock name) eq_refl Htg Hc (VA _ _ Hv _ _ Ha) (VH _ _ Hhv _ _ Hhs) Hm) as (N2 & H2).
  exists (N1 + N2). intros k st Hk Hs Hpb Hend Hhint. destruct (H2 k st ltac:(lia) Hs) as (ctx & Hctx & Ei).
  destruct (H1 k (up_stack (SBlock name :: r_stack st) st) ltac:(lia)) as (st' & Er' & F); [apply at_push, Hs | exact Hpb | exact Hend | right; change (hint_after (up_stack (SBlock name :: r_stack st) st)) with (hint_after st); congruence |].
  exists st'. split; [|exact F]. rewrite (Hblk k st Hs). apply bind_err. rewrite Ei. apply bind_err.
  rewrite <- (Hp ctx (mkTpl src (NBlock b))) in Er'; [exact Er'|apply Hctx..|].
  split; [exact Ep|]. split; [exact Ed|]. split; [rewrite Er; reflexivity|apply Hs].
Qed.

Scheme item_err_mut := Minimality for item_err Sort Prop
  with items_err_mut := Minimality for items_err Sort Prop
  with rounds_err_mut := Minimality for rounds_err Sort Prop
  with else_err_mut := Minimality for else_err Sort Prop
  with steps_err_mut := Minimality for steps_err Sort Prop.
Combined Scheme err_mut from item_err_mut, items_err_mut, rounds_err_mut, else_err_mut, steps_err_mut.
Theorem err_runs :
  (forall scs act pb s e i out err, item_err w nm scs act pb s e i out err -> item_bad scs act pb s e i out err)
  /\ (forall scs act pb s e l out err, items_err w nm scs act pb s e l out err -> items_bad scs act pb s e l out err)
  /\ (forall its scs act pb s e l out err, rounds_err w nm its scs act pb s e l out err -> rounds_bad its scs act pb s e l out err)
  /\ (forall scs act pb bs m' out err, else_err w nm scs act pb bs m' out err -> else_bad scs act pb bs m' out err)
  /\ (forall act pb m body bs m' cur l out err, steps_err w nm act pb m body bs m' cur l out err -> steps_bad act pb m body bs m' cur l out err).
Proof.
  destruct (out_runs w en Ep Er Ed Hw Hf) as (OG & OL & _ & OE & _).
  apply (err_mut w nm item_bad items_bad rounds_bad else_bad steps_bad); intros.
  - apply call_item_bad; assumption.
  - apply dyn_item_bad; assumption.
  - eapply link_cycle_bad; eassumption.
  - eapply link_bad; eassumption.
  - eapply raw_bad; eassumption.
  - apply partial_identifier_bad; assumption.
  - eapply partial_enter_bad; eassumption.
  - eapply partial_bad; eassumption.
  - eapply dyn_partial_enter_bad; eassumption.
  - eapply dyn_partial_bad; eassumption.
  - apply partial_block_enter_bad; assumption.
  - eapply partial_block_bad; eassumption.
  - eapply block_helper_bad; eassumption.
  - eapply if_bad; eassumption.
  - eapply if_else_bad; eassumption.
  - eapply unless_bad; eassumption.
  - eapply unless_else_bad; eassumption.
  - eapply with_bad; eassumption.
  - eapply each_bad; eassumption.
  - eapply plain_block_bad; eassumption.
  - apply block_strict_bad; assumption.
  - eapply block_handler_bad; eassumption.
  - eapply block_missing_handler_bad; eassumption.
  - eapply own_bad; eassumption.
  - apply items_here; assumption.
  - eapply items_later; [apply OG|]; eassumption.
  - apply rounds_here; assumption.
  - eapply rounds_later; [apply OL|]; eassumption.
  - apply else_cond_bad; assumption.
  - eapply else_body_bad; eassumption.
  - apply bad_stop.
  - apply bad_say; assumption.
  - apply bad_put; assumption.
  - apply bad_show; assumption.
  - eapply bad_shown; [apply OL|]; eassumption.
  - apply bad_else; assumption.
  - eapply bad_elsed; [eassumption|apply OE; eassumption|assumption].
  - apply bad_enter; assumption.
  - apply bad_alter; assumption.
  - apply bad_leave; assumption.
Qed.
End Items.
