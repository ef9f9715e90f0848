(** * SemItems: rendering follows the source semantics of Spec_Sem. *)
From Coq Require Import Lia String.
From Verif Require Import Str Lexer Json Ast ErrInfo Parser Render Helpers Registry StrFacts Spec_Lexer Spec_Values ValueFacts Spec_Helpers LookupFacts
  Spec_Render Spec_Blocks Spec_Calls CycleFacts HashFacts Props_Values Props_Blocks Spec_Source SynBlock Spec_Sem SemFacts.
Open Scope nat_scope. Open Scope list_scope.

Definition end_after (st : rst) : bool := match r_end st with Some e => th_after e | None => false end.
Definition hint_after (st : rst) : bool := match r_hint st with Some h => th_after h | None => false end.
Definition opt_after (h : option trim_hint) : bool := match h with Some h => th_after h | None => false end.
Definition open_after (i : item) : bool :=
  match i with ICall _ m _ _ | IDyn _ m _ _ _ _ | IRaw _ m _ _ | IBlock _ _ m _ _ _ => tl_after m | _ => false end.
Lemma trim_of ly pe src n i : node_is ly pe src n i -> node_trim src n = Some (mkHint (before i) (open_after i)).
Proof. intros H. destruct H; try reflexivity; assumption. Qed.
Lemma blocky_of ly pe src n i : node_is ly pe src n i -> is_block n = is_blocky i.
Proof. intros H. destruct H; reflexivity. Qed.

(** the state in which the body of a node runs *)
Definition prep (tr : trim_state) (h : trim_hint) (st : rst) : rst :=
  let st := up_hint (Some h) (up_trim tr st) in
  match r_end st with
  | Some e => up_end None (if th_after e then up_trim (mkTrim true (ts_end (r_trim st))) st else st)
  | None => st
  end.
Lemma node_prep K en src n tr h st : node_trim src n = Some h -> node_ K en src n tr st = node_body K en src n (prep tr h st).
Proof. intros H. unfold node_. rewrite bind_upd, H. cbn [need]. rewrite bind_ret, bind_upd, bind_upd. reflexivity. Qed.
Lemma prep_facts tr h st scs act : at_state scs act st ->
  at_state scs act (prep tr h st) /\ r_partials (prep tr h st) = r_partials st /\ r_out (prep tr h st) = r_out st
  /\ r_trim (prep tr h st) = mkTrim (ts_start tr || end_after st) (ts_end tr) /\ r_hint (prep tr h st) = Some h /\ r_end (prep tr h st) = None.
Proof.
  intros (H1 & H2 & H3). unfold prep, end_after, at_state. cbn [r_end up_hint up_trim]. destruct (r_end st) as [e|] eqn:E.
  - destruct (th_after e); cbn; rewrite ?orb_true_r, ?orb_false_r; destruct tr; auto 12.
  - cbn. rewrite orb_false_r. destruct tr; auto 12.
Qed.

(** a run that ends in [st'] with [out] added to the output *)
Definition moved (scs : list scope) (act : list site) (st st' : rst) (out : str) : Prop :=
  at_state scs act st' /\ r_partials st' = r_partials st /\ concat (r_out st') = concat (r_out st) ++ out.
Lemma moved_nil scs act st : at_state scs act st -> moved scs act st st [].
Proof. intros H. split; [exact H|]. rewrite app_nil_r. auto. Qed.
Lemma moved_app scs act a b c o o' : moved scs act a b o -> moved scs act b c o' -> moved scs act a c (o ++ o').
Proof. intros (_ & H1 & H2) (H3 & H4 & H5). split; [exact H3|]. split; [congruence|]. rewrite H5, H2, app_assoc. reflexivity. Qed.

(** one step of the iteration: [A], [E]: a [~] at the start and end of the surrounding block *)
Definition step (K : knot) (en : env) (src : str) (A E : bool) (n : node) (tr : trim_state) (first last : bool) : M unit :=
  k_node K en src n (mkTrim (ts_start tr || (first && A)) (ts_end tr || (last && E))).
Lemma iter_ext src f g : (forall n tr a b st, f n tr a b st = g n tr a b st) -> forall ns prev hint st, iter_nodes src f prev hint ns st = iter_nodes src g prev hint ns st.
Proof.
  intros H. induction ns as [|n ns IH]; intros prev hint st; [reflexivity|]. cbn [iter_nodes]. destruct prev as [b|]; cbn [fst snd]; unfold bind; destruct ns as [|m ms].
  1,3: unfold ret; destruct (need (node_trim src n) st); try reflexivity; rewrite H; destruct (g _ _ _ _ _); reflexivity.
  all: destruct (need (node_trim src m) st); try reflexivity; unfold ret; destruct (need (node_trim src n) s); try reflexivity; rewrite H; destruct (g _ _ _ _ _); try reflexivity; apply IH.
Qed.
Lemma plain_step K en src ns prev hint st :
  iter_nodes src (fun n tr _ _ => k_node K en src n tr) prev hint ns st = iter_nodes src (step K en src false false) prev hint ns st.
Proof. apply iter_ext. intros n [a b] x y s. unfold step. cbn [ts_start ts_end]. rewrite !andb_false_r, !orb_false_r. reflexivity. Qed.
Lemma template_step K en src b m hc st : node_trim src (NBlock b) = Some (hint_of m) -> block_trim_close src b = Some hc ->
  template_ K en (mkTpl src (NBlock b)) st
  = (iter_nodes src (step K en src (tl_after m) (th_before hc)) None (r_hint st) (b_nodes b) ;;
     upd (up_end (match b_nodes b with [] => None | _ => Some hc end))) st.
Proof.
  intros Hm Hc. unfold template_. cbn [tp_src tp_node children]. rewrite bind_get. unfold bind at 1.
  erewrite iter_ext with (g := step K en src (tl_after m) (th_before hc)).
  - unfold bind. destruct (iter_nodes src _ None (r_hint st) (b_nodes b) st) as [[] s|e s|p|]; try reflexivity.
    destruct (b_nodes b); [reflexivity|]. rewrite Hc. reflexivity.
  - intros n [x y] fst lst s. unfold step. rewrite Hm, Hc. destruct m as [mb ma], hc as [hb ha]. unfold bind, need, ret, hint_of. cbn [tl_after tl_before].
    destruct fst, lst, ma, hb; cbn; rewrite ?orb_true_r, ?orb_false_r; reflexivity.
Qed.
(** one node in front of others *)
Lemma iter_cons src f prev hint n ns hn st : node_trim src n = Some hn ->
  (forall m r, ns = m :: r -> node_trim src m <> None) ->
  iter_nodes src f prev hint (n :: ns) st =
  (f n (mkTrim (match prev with Some b => b | None => opt_after hint end) (match ns with [] => false | m :: _ => match node_trim src m with Some h => th_before h | None => false end end))
     (match prev with None => true | Some _ => false end) (match ns with [] => true | _ => false end) ;;
   iter_nodes src f (if is_block n then None else Some (th_after hn)) (match prev with Some _ => hint | None => None end) ns) st.
Proof.
  intros Hn Hm. cbn [iter_nodes]. destruct ns as [|m r].
  - destruct prev as [b|]; cbn [fst snd]; rewrite bind_ret, Hn; cbn [need]; rewrite bind_ret; reflexivity.
  - specialize (Hm m r eq_refl). destruct (node_trim src m) as [h|] eqn:E; [|contradiction].
    destruct prev as [b|]; cbn [fst snd]; cbn [need]; unfold bind at 1; rewrite bind_ret; unfold ret at 1; rewrite Hn; cbn [need]; rewrite bind_ret; reflexivity.
Qed.

(** ** Items *)
Definition ends (i : item) : bool := match i with IRaw _ _ _ m' => tl_after m' | _ => false end.
Fixpoint last_end (d : bool) (l : list item) : bool := match l with [] => d | i :: r => last_end (ends i) r end.
Lemma last_end_app d l i : last_end d (l ++ [i]) = ends i.
Proof. revert d. induction l as [|x l IH]; intros d; [reflexivity | apply IH]. Qed.
Lemma flat_tail i l : flat (i :: l) -> flat l.
Proof. intros H pre x y post E. apply (H (i :: pre) x y post). rewrite E. reflexivity. Qed.
Lemma flat_head i j l : flat (i :: j :: l) -> is_blocky i = false.
Proof. intros H. apply (H [] i j l). reflexivity. Qed.
Definition quiet (w : world) (i : item) : Prop := loud i = false /\ (includes_partial i = false \/ quiet_docs w).
Lemma quiet_cons w i l : quiet_body w (i :: l) -> quiet w i /\ quiet_body w l.
Proof.
  unfold quiet_body, quiet. cbn [existsb]. rewrite !orb_false_iff. intros [[H1 H2] [[H3 H4]|H3]]; auto 10.
Qed.
Lemma moved_pop scs act x st st' out : at_state scs act st -> moved scs (x :: act) (up_stack (x :: r_stack st) st) st' out -> moved scs act st (pop_stack st') out.
Proof. intros (H1 & H2 & H3) ((A & B & C) & E & F). unfold moved, at_state, pop_stack in *. cbn in *. rewrite C. auto 10. Qed.
Lemma moved_scope scs act sc st st' out : at_state scs act st -> moved (sc :: scs) act (up_scopes (sc :: r_scopes st) st) st' out ->
  moved scs act st (up_scopes scs st') out /\ r_scopes st' = sc :: scs.
Proof. intros (H1 & H2 & H3) ((A & B & C) & E & F). unfold moved, at_state in *. cbn in *. auto 10. Qed.
Lemma at_scope scs act sc st : at_state scs act st -> at_state (sc :: scs) act (up_scopes (sc :: r_scopes st) st).
Proof. intros (H1 & H2 & H3). unfold at_state. cbn. rewrite H2. auto. Qed.

(** iterations that leave the scopes alone *)
Inductive rounds_ok (body : M unit) : list scope -> rst -> rst -> Prop :=
| ro_nil st : rounds_ok body [] st st
| ro_cons sc scs st s1 s : body (up_scopes (sc :: r_scopes st) st) = ROk tt s1 -> r_scopes s1 = sc :: r_scopes st ->
    rounds_ok body scs (up_scopes (r_scopes st) s1) s -> rounds_ok body (sc :: scs) st s.
Lemma arr_rounds K en t len l : forall i sc st s, i + length l = len -> arr_like sc ->
  rounds_ok (template_ K en t) (number (array_scope len) i l) st s ->
  run K en (each_arr t len i l pop_end) (up_scopes (sc :: r_scopes st) st) = ROk None s.
Proof.
  induction l as [|v l IH]; intros i sc st s Hl Hs Hr; cbn [number] in Hr; inversion Hr as [st0 E1 E2 E3|sc0 its st0 s1 s0 E1 E2 E3 H1 H2]; subst.
  - cbn [each_arr]. rewrite pop_end_run, up_scopes_same. reflexivity.
  - cbn [each_arr run]. rewrite bind_upd. cbn [r_scopes up_scopes]. rewrite try_ret, (arr_set _ _ _ _ _ Hs).
    set (len := i + length (v :: l)) in *.
    replace (i =? len - 1) with (S i =? len) by (unfold len; cbn [length]; apply eq_true_iff_eq; rewrite !Nat.eqb_eq; lia).
    change (mkScope (Some v) _) with (array_scope len i v).
    change (up_scopes (array_scope len i v :: r_scopes st) (up_scopes (sc :: r_scopes st) st)) with (up_scopes (array_scope len i v :: r_scopes st) st).
    rewrite (bind_ok _ _ _ _ _ E1). rewrite <- (IH (S i) (array_scope len i v) (up_scopes (r_scopes st) s1) s);
      [|unfold len; simpl; lia|right; eexists _, _, _; reflexivity|exact E3].
    cbn [r_scopes up_scopes]. f_equal. rewrite <- E2. destruct s1; reflexivity.
Qed.
Lemma obj_rounds K en t len l : forall i sc st s, i + length l = len -> obj_like sc ->
  rounds_ok (template_ K en t) (number (object_scope len) i l) st s ->
  run K en (each_obj t i l pop_end) (up_scopes (sc :: r_scopes st) st) = ROk None s.
Proof.
  induction l as [|[k v] l IH]; intros i sc st s Hl Hs Hr; cbn [number] in Hr; inversion Hr as [st0 E1 E2 E3|sc0 its st0 s1 s0 E1 E2 E3 H1 H2]; subst.
  - cbn [each_obj]. rewrite pop_end_run, up_scopes_same. reflexivity.
  - cbn [each_obj run]. rewrite bind_upd. cbn [r_scopes up_scopes]. rewrite try_ret, (obj_set _ _ _ _ _ _ Hs).
    set (len := i + length ((k, v) :: l)) in *.
    replace (match l with [] => true | _ => false end) with (S i =? len) by (unfold len; apply eq_true_iff_eq; rewrite Nat.eqb_eq; destruct l; cbn [length]; split; intros; try reflexivity; try discriminate; lia).
    change (mkScope (Some v) _) with (object_scope len i (k, v)).
    change (up_scopes (object_scope len i (k, v) :: r_scopes st) (up_scopes (sc :: r_scopes st) st)) with (up_scopes (object_scope len i (k, v) :: r_scopes st) st).
    rewrite (bind_ok _ _ _ _ _ E1). rewrite <- (IH (S i) (object_scope len i (k, v)) (up_scopes (r_scopes st) s1) s);
      [|unfold len; simpl; lia|right; eexists _, _, _, _; reflexivity|exact E3].
    cbn [r_scopes up_scopes]. f_equal. rewrite <- E2. destruct s1; reflexivity.
Qed.

Lemma call_shape pe src pt cd c h t xs hs : call_is Loose pe src pt cd c (Call h t xs hs) ->
  exists p, c_partial c = pt /\ c_target c = TPath p /\ path_is src p h t /\ Forall2 (param_is Loose pe src) (c_args c) xs
    /\ Forall2 (fun kp kv => fst kp = fst kv /\ param_is Loose pe src (snd kp) (snd kv)) (c_params c) hs.
Proof. intros H. inversion H; subst. eexists. cbn. eauto 10. Qed.

Section Items.
Variables (w : world) (en : env).
Hypothesis Ep : en_plat en = w_plat w.
Hypothesis Er : en_reg en = w_reg w.
Hypothesis Ed : en_root en = w_data w.
Hypothesis Hw : forall h s, exists n, en_write en h s = WOk n.
Hypothesis Hf : fits w.
Notation pe := (pl_penv (w_plat w)).

Lemma write_runs x esc s e scs act st y : at_state scs act st -> r_trim st = mkTrim s e -> stripped s e x y ->
  exists n st', write_str en x esc st = ROk n st' /\ moved scs act st st' (if esc then written (rg_escape (w_reg w)) y else y)
    /\ r_hint st' = r_hint st /\ r_end st' = r_end st.
Proof.
  intros Hs Ht Hy. apply stripped_trim in Hy. unfold write_str. rewrite bind_get, Ht. cbn [ts_start ts_end]. unfold trimmed in Hy. rewrite Hy.
  destruct y as [|c y].
  - exists 0, st. split; [reflexivity|]. split; [|auto]. destruct esc; apply moved_nil, Hs.
  - unfold emit. rewrite Er. set (z := if esc then rg_escape (w_reg w) (c :: y) else c :: y). destruct (Hw (r_out st) z) as (n & E). rewrite E. exists n, (up_out (r_out st ++ [z]) st).
    split; [reflexivity|]. split; [|auto]. unfold moved, at_state in *. cbn. rewrite concat_app. cbn [concat]. rewrite app_nil_r. unfold z, written. destruct esc; auto.
Qed.

(** [@partial-block]: the content of the innermost partial block *)
Definition pb_is (pb : option (list item)) (l : list (str * tpl)) : Prop :=
  match pb with
  | None => l = []
  | Some body => exists src b, l = [(partial_block, mkTpl src (NBlock b))] /\ Forall2 (node_is Loose pe src) (b_nodes b) body /\ Forall (regular w) body
      /\ calm_end body /\ (quiet_docs w -> existsb loud body = false)
  end.
Definition went (scs : list scope) (act : list site) (ppl : list (str * tpl)) (st st' : rst) (out : str) : Prop :=
  at_state scs act st' /\ r_partials st' = ppl /\ concat (r_out st') = concat (r_out st) ++ out.
Lemma moved_went scs act ppl st st' out : moved scs act st st' out -> r_partials st = ppl -> went scs act ppl st st' out.
Proof. intros (H1 & H2 & H3) Hp. split; [exact H1|]. rewrite H2. auto. Qed.
Lemma went_nil scs act ppl st : at_state scs act st -> r_partials st = ppl -> went scs act ppl st st [].
Proof. intros H Hp. apply moved_went; [apply moved_nil, H|exact Hp]. Qed.
Lemma went_app scs act pp1 pp2 a b c o o' : went scs act pp1 a b o -> went scs act pp2 b c o' -> went scs act pp2 a c (o ++ o').
Proof. intros (_ & H1 & H2) (H3 & H4 & H5). split; [exact H3|]. split; [exact H4|]. rewrite H5, H2, app_assoc. reflexivity. Qed.
Lemma went_pop scs act ppl x st st' out : at_state scs act st -> went scs (x :: act) ppl (up_stack (x :: r_stack st) st) st' out -> went scs act ppl st (pop_stack st') out.
Proof. intros (H1 & H2 & H3) ((A & B & C) & E & F). unfold went, at_state, pop_stack in *. cbn in *. rewrite C. auto 10. Qed.
Lemma went_scope scs act ppl sc st st' out : at_state scs act st -> went (sc :: scs) act ppl (up_scopes (sc :: r_scopes st) st) st' out ->
  went scs act ppl st (up_scopes scs st') out /\ r_scopes st' = sc :: scs.
Proof. intros (H1 & H2 & H3) ((A & B & C) & E & F). unfold went, at_state in *. cbn in *. auto 10. Qed.

Definition item_good (scs : list scope) (act : list site) (pb pb' : option (list item)) (s e : bool) (i : item) (out : str) : Prop :=
  forall src n, node_is Loose pe src n i -> regular w i -> forall ppl, pb_is pb ppl -> exists N ppl', pb_is pb' ppl' /\ forall k st tr, N <= k -> at_state scs act st -> r_partials st = ppl ->
  ts_start tr || end_after st = s -> ts_end tr = e ->
  exists st', node_ (tie k) en src n tr st = ROk tt st' /\ went scs act ppl' st st' out /\ end_after st' = ends i /\ (quiet w i -> hint_after st' = false).
Definition items_good (scs : list scope) (act : list site) (pb pb' : option (list item)) (s e : bool) (l : list item) (out : str) : Prop :=
  forall src ns A, Forall2 (node_is Loose pe src) ns l -> Forall (regular w) l -> (A = true -> flat l) ->
  forall ppl, pb_is pb ppl -> exists N ppl', pb_is pb' ppl' /\ forall k st prev hint, N <= k -> at_state scs act st -> r_partials st = ppl -> (prev <> None -> hint = None) ->
  (l <> [] -> (match prev with Some b => b | None => A || opt_after hint end) || end_after st = s) ->
  exists st', iter_nodes src (step (tie k) en src A e) prev hint ns st = ROk tt st' /\ went scs act ppl' st st' out
    /\ end_after st' = last_end (end_after st) l /\ (quiet_body w l -> hint_after st = false -> hint_after st' = false).
(** the same for the template of a block *)
Definition body_good (scs : list scope) (act : list site) (pb pb' : option (list item)) (s : bool) (l : list item) (src : str) (n : node) (out : str) : Prop :=
  forall ppl, pb_is pb ppl -> exists N ppl', pb_is pb' ppl' /\ forall k st, N <= k -> at_state scs act st -> r_partials st = ppl -> end_after st = false -> (hint_after st = true -> s = true) ->
  exists st', template_ (tie k) en (mkTpl src n) st = ROk tt st' /\ went scs act ppl' st st' out /\ end_after st' = false
    /\ (quiet_body w l -> hint_after st = false -> hint_after st' = false).
(** what a block node needs for that *)
Definition body_node (src : str) (n : node) (s e : bool) (l : list item) : Prop :=
  exists b m hc, n = NBlock b /\ node_trim src n = Some (hint_of m) /\ block_trim_close src b = Some hc /\ Forall2 (node_is Loose pe src) (b_nodes b) l
    /\ Forall (regular w) l /\ tl_after m = s /\ th_before hc = e /\ th_after hc = false /\ (s = true -> flat l).
Lemma body_runs scs act pb pb' s e l src n out : items_good scs act pb pb' s e l out -> body_node src n s e l -> body_good scs act pb pb' s l src n out.
Proof.
  intros H (b & m & hc & -> & Hm & Hc & Hn & Hr & Es & Ee & Ea & Hfl) ppl Hppl. destruct (H src (b_nodes b) s Hn Hr Hfl ppl Hppl) as (N & ppl' & Hppl' & HN). exists N, ppl'. split; [exact Hppl'|]. intros k st Hk Hs Hpb He Hh.
  destruct (HN k st None (r_hint st) Hk Hs Hpb ltac:(congruence)) as (st' & E & Hmv & _ & Hq).
  { intros _. rewrite He, orb_false_r. change (opt_after (r_hint st)) with (hint_after st). destruct s; [reflexivity|]. destruct (hint_after st); [|reflexivity]. exfalso. discriminate (Hh eq_refl). }
  rewrite (template_step _ _ _ _ _ _ _ Hm Hc), Es, Ee, (bind_ok _ _ _ _ _ E). eexists. split; [reflexivity|]. split; [exact Hmv|]. split; [|exact Hq].
  unfold end_after. cbn. destruct (b_nodes b); [reflexivity | exact Ea].
Qed.

(** ** Items in a row *)
Lemma items_nil scs act pb s e : items_good scs act pb pb s e [] [].
Proof.
  intros src ns A Hn _ _ ppl Hppl. inversion Hn; subst. exists 0, ppl. split; [exact Hppl|]. intros k st prev hint _ Hs Hpb _ _. exists st. split; [reflexivity|]. split; [apply went_nil; assumption|]. auto.
Qed.
Lemma items_cons scs act pb pb1 pb' s e i l o o' : item_good scs act pb pb1 s (next_before e l) i o -> items_good scs act pb1 pb' (after i) e l o' -> items_good scs act pb pb' s e (i :: l) (o ++ o').
Proof.
  intros H1 H2 src ns A Hn Hr Hfl ppl Hppl. inversion Hn as [|n x ns0 xs Hn1 Hn2]; subst. inversion Hr as [|x xs Hr1 Hr2]; subst.
  destruct (H1 src n Hn1 Hr1 ppl Hppl) as (N1 & pp1 & Hpp1 & G1). destruct (H2 src ns0 A Hn2 Hr2 ltac:(intros HA; exact (flat_tail _ _ (Hfl HA))) pp1 Hpp1) as (N2 & pp2 & Hpp2 & G2).
  exists (S N1 + N2), pp2. split; [exact Hpp2|]. intros k st prev hint Hk Hs Hpb Hph Hst. destruct k as [|k]; [lia|].
  pose proof (trim_of _ _ _ _ _ Hn1) as Tn. rewrite (iter_cons src _ prev hint n ns0 _ st Tn).
  2: { intros m r E. subst ns0. inversion Hn2; subst. match goal with X : node_is _ _ _ m _ |- _ => rewrite (trim_of _ _ _ _ _ X) end. discriminate. }
  unfold step at 1. cbn [tie k_node ts_start ts_end].
  match goal with |- context [node_ (tie k) en src n ?tr] => destruct (G1 k st tr ltac:(lia) Hs Hpb) as (st1 & E1 & M1 & F1 & Q1) end.
  - rewrite <- Hst by discriminate. cbn [ts_start]. destruct prev as [b|]; cbn [andb]; [rewrite orb_false_r; reflexivity | rewrite (orb_comm (opt_after hint)); reflexivity].
  - cbn [ts_end]. inversion Hn2; subst; [reflexivity|]. match goal with X : node_is _ _ _ ?m _ |- _ => rewrite (trim_of _ _ _ _ _ X) end. cbn [th_before andb next_before]. apply orb_false_r.
  - rewrite (bind_ok _ _ _ _ _ E1). change (mkKnot (node_ (tie k)) (call_ (tie k)) (stmt_ (tie k))) with (tie (S k)).
    rewrite (blocky_of _ _ _ _ _ Hn1). destruct (G2 (S k) st1 (if is_blocky i then None else Some (th_after (mkHint (before i) (open_after i)))) (match prev with Some _ => hint | None => None end)) as (st2 & E2 & M2 & F2 & Q2).
    + lia.
    + apply M1.
    + apply M1.
    + intros _. destruct prev; [apply Hph; discriminate | reflexivity].
    + intros Hl. rewrite F1. replace (match prev with Some _ => hint | None => None end) with (@None trim_hint) by (destruct prev; [symmetry; apply Hph; discriminate | reflexivity]).
      cbn [opt_after th_after]. rewrite orb_false_r. destruct i; cbn [is_blocky ends after open_after orb]; rewrite ?orb_false_r; try reflexivity.
      * destruct A; [|reflexivity]. destruct l as [|j l]; [contradiction|]. discriminate (flat_head _ _ _ (Hfl eq_refl)).
      * destruct A; [destruct l as [|j l]; [contradiction|]; discriminate (flat_head _ _ _ (Hfl eq_refl))|]. inversion Hr1; subst; auto.
    + exists st2. split; [exact E2|]. split; [exact (went_app _ _ _ _ _ _ _ _ _ M1 M2)|]. split; [rewrite F2, F1; reflexivity|].
      intros Hq _. destruct (quiet_cons _ _ _ Hq) as [Hq1 Hq2]. apply Q2; [exact Hq2 | exact (Q1 Hq1)].
Qed.

(** ** Leaves *)
(** a node whose body leaves hint and end alone *)
Lemma leaf_good scs act pb s e i out :
  (forall src n, node_is Loose pe src n i -> exists N, forall k st, N <= k -> at_state scs act st -> r_trim st = mkTrim s e -> r_end st = None ->
     exists st', node_body (tie k) en src n st = ROk tt st' /\ moved scs act st st' out /\ r_hint st' = r_hint st /\ end_after st' = ends i) ->
  item_good scs act pb pb s e i out.
Proof.
  intros H src n Hn _ ppl Hppl. destruct (H src n Hn) as (N & HN). exists N, ppl. split; [exact Hppl|]. intros k st tr Hk Hs Hpb Es Ee. pose proof (trim_of _ _ _ _ _ Hn) as Tn. rewrite (node_prep _ _ _ _ _ _ _ Tn).
  destruct (prep_facts tr (mkHint (before i) (open_after i)) st scs act Hs) as (P1 & P2 & P3 & P4 & P5 & P6). rewrite Es, Ee in P4.
  destruct (HN k _ Hk P1 P4 P6) as (st' & E & (M1 & M2 & M3) & E1 & E2). exists st'. split; [exact E|]. split; [apply moved_went; [|exact Hpb]; split; [exact M1|]; rewrite M2, M3, P2, P3; auto|]. split; [exact E2|].
  intros [Hl _]. unfold hint_after. rewrite E1, P5. cbn [th_after]. destruct i; try reflexivity; cbn [open_after loud] in *; rewrite ?orb_false_iff in Hl; tauto.
Qed.
Lemma write_leaf x esc s e scs act st y (i : item) : at_state scs act st -> r_trim st = mkTrim s e -> r_end st = None -> stripped s e x y -> ends i = false ->
  exists st', (write_str en x esc ;; ret tt) st = ROk tt st' /\ moved scs act st st' (if esc then written (rg_escape (w_reg w)) y else y) /\ r_hint st' = r_hint st /\ end_after st' = ends i.
Proof.
  intros Hs Ht He Hy Hi. destruct (write_runs x esc s e scs act st y Hs Ht Hy) as (n & st' & E & M & H1 & H2). exists st'. rewrite (bind_ok _ _ _ _ _ E). split; [reflexivity|]. split; [exact M|]. split; [exact H1|].
  unfold end_after. rewrite H2, He, Hi. reflexivity.
Qed.
Lemma text_good scs act pb s e x y : stripped s e x y -> item_good scs act pb pb s e (IText x) y.
Proof.
  intros Hy. apply leaf_good. intros src n Hn. inversion Hn as [t s0 Ht| | | | | | | | ]; subst. exists 0. intros k st _ Hs Htr He. cbn [node_body]. rewrite Ht. cbn [need]. rewrite bind_ret.
  apply (write_leaf x false s e); auto.
Qed.
Lemma value_good scs act pb s e triple m c v x y : call_value w scs act c (Some v) -> shown (pl_fstr (w_plat w)) v x -> stripped s e x y ->
  item_good scs act pb pb s e (ICall triple m false c) (if triple then y else written (rg_escape (w_reg w)) y).
Proof.
  intros Hv Hx Hy. apply leaf_good. intros src n Hn. inversion Hn as [|c0 tr0 m0 p0 x0 u0 Hc He Ht Hstr| | | | | | | ]; subst.
  destruct (values_run w en Ep Er Ed Hf scs act) as (_ & _ & _ & V). destruct (V _ _ Hv _ _ _ _ Hc) as (N & HN).
  exists (S N). intros k st Hk Hs Htr Hend. destruct k as [|k]; [lia|]. cbn [node_body].
  assert (E : k_stmt (tie (S k)) en src c0 st = ROk (Some v) st).
  { cbn [tie k_stmt]. unfold stmt_. replace (c_partial c0) with false by (inversion Hc; reflexivity). apply HN; [lia | exact Hs]. }
  rewrite (bind_ok _ _ _ _ _ E), He. cbn [need]. rewrite bind_ret, Ep, (shown_stringify _ _ _ Hx).
  destruct (write_leaf x (negb triple) s e scs act st y (ICall triple m false c) Hs Htr Hend Hy eq_refl) as (st' & E' & M & R). exists st'. split; [exact E'|]. split; [|exact R]. destruct triple; exact M.
Qed.
Lemma missing_good scs act pb s e triple m c : call_value w scs act c None -> item_good scs act pb pb s e (ICall triple m false c) [].
Proof.
  intros Hv. apply leaf_good. intros src n Hn. inversion Hn as [|c0 tr0 m0 p0 x0 u0 Hc He Ht Hstr| | | | | | | ]; subst.
  destruct (values_run w en Ep Er Ed Hf scs act) as (_ & _ & _ & V). destruct (V _ _ Hv _ _ _ _ Hc) as (N & HN).
  exists (S N). intros k st Hk Hs Htr Hend. destruct k as [|k]; [lia|]. cbn [node_body].
  assert (E : k_stmt (tie (S k)) en src c0 st = ROk None st).
  { cbn [tie k_stmt]. unfold stmt_. replace (c_partial c0) with false by (inversion Hc; reflexivity). apply HN; [lia | exact Hs]. }
  rewrite (bind_ok _ _ _ _ _ E). exists st. split; [reflexivity|]. split; [apply moved_nil, Hs|]. split; [reflexivity|]. unfold end_after. rewrite Hend. reflexivity.
Qed.
(** a tag whose target is a call: the call decides *)
Lemma dyn_shape src p c x xs hs : dyn_is Loose pe src p c x xs hs ->
  exists sub, c_partial c = p /\ c_target c = TSub sub /\ call_is Loose pe src false false sub x /\ Forall2 (param_is Loose pe src) (c_args c) xs
    /\ Forall2 (fun kp kv => fst kp = fst kv /\ param_is Loose pe src (snd kp) (snd kv)) (c_params c) hs.
Proof. intros H. destruct H. eexists. cbn. eauto 10. Qed.
Lemma dyn_stmt src c x xs hs sub k st : dyn_is Loose pe src false c x xs hs -> c_target c = TSub sub ->
  k_stmt (tie (S (S k))) en src c st = call_ (tie k) en src sub st.
Proof. intros H E. cbn [tie k_stmt]. unfold stmt_. replace (c_partial c) with false by (inversion H; reflexivity). unfold call_ at 1. rewrite E. reflexivity. Qed.
Lemma dyn_value_good scs act pb s e triple m c xs hs v x y : call_value w scs act c (Some v) -> shown (pl_fstr (w_plat w)) v x -> stripped s e x y ->
  item_good scs act pb pb s e (IDyn triple m false c xs hs) (if triple then y else written (rg_escape (w_reg w)) y).
Proof.
  intros Hv Hx Hy. apply leaf_good. intros src n Hn. inversion Hn as [| |c0 tr0 m0 p0 x0 xs0 hs0 u0 Hc He Ht Hstr| | | | | | ]; subst.
  destruct (dyn_shape _ _ _ _ _ _ Hc) as (sub & _ & Es & Hsub & _).
  destruct (values_run w en Ep Er Ed Hf scs act) as (_ & _ & _ & V). destruct (V _ _ Hv _ _ _ _ Hsub) as (N & HN).
  exists (S (S N)). intros k st Hk Hs Htr Hend. destruct k as [|[|k]]; [lia|lia|]. cbn [node_body].
  assert (E : k_stmt (tie (S (S k))) en src c0 st = ROk (Some v) st) by (rewrite (dyn_stmt _ _ _ _ _ _ _ _ Hc Es); apply HN; [lia | exact Hs]).
  rewrite (bind_ok _ _ _ _ _ E), He. cbn [need]. rewrite bind_ret, Ep, (shown_stringify _ _ _ Hx).
  destruct (write_leaf x (negb triple) s e scs act st y (IDyn triple m false c xs hs) Hs Htr Hend Hy eq_refl) as (st' & E' & M & R). exists st'. split; [exact E'|]. split; [|exact R]. destruct triple; exact M.
Qed.
Lemma dyn_missing_good scs act pb s e triple m c xs hs : call_value w scs act c None -> item_good scs act pb pb s e (IDyn triple m false c xs hs) [].
Proof.
  intros Hv. apply leaf_good. intros src n Hn. inversion Hn as [| |c0 tr0 m0 p0 x0 xs0 hs0 u0 Hc He Ht Hstr| | | | | | ]; subst.
  destruct (dyn_shape _ _ _ _ _ _ Hc) as (sub & _ & Es & Hsub & _).
  destruct (values_run w en Ep Er Ed Hf scs act) as (_ & _ & _ & V). destruct (V _ _ Hv _ _ _ _ Hsub) as (N & HN).
  exists (S (S N)). intros k st Hk Hs Htr Hend. destruct k as [|[|k]]; [lia|lia|]. cbn [node_body].
  assert (E : k_stmt (tie (S (S k))) en src c0 st = ROk None st) by (rewrite (dyn_stmt _ _ _ _ _ _ _ _ Hc Es); apply HN; [lia | exact Hs]).
  rewrite (bind_ok _ _ _ _ _ E). exists st. split; [reflexivity|]. split; [apply moved_nil, Hs|]. split; [reflexivity|]. unfold end_after. rewrite Hend. reflexivity.
Qed.
Lemma comment_good scs act pb s e x : item_good scs act pb pb s e (IComment x) [].
Proof.
  apply leaf_good. intros src n Hn. inversion Hn; subst. exists 0. intros k st _ Hs _ Hend. exists st. split; [reflexivity|]. split; [apply moved_nil, Hs|]. split; [reflexivity|]. unfold end_after. rewrite Hend. reflexivity.
Qed.
Lemma raw_comment_good scs act pb s e x : item_good scs act pb pb s e (IRawComment x) [].
Proof.
  apply leaf_good. intros src n Hn. inversion Hn; subst. exists 0. intros k st _ Hs _ Hend. exists st. split; [reflexivity|]. split; [apply moved_nil, Hs|]. split; [reflexivity|]. unfold end_after. rewrite Hend. reflexivity.
Qed.
Lemma escaped_good scs act pb s e x y : stripped s e (lit "{{" ++ x ++ lit "}}") y -> item_good scs act pb pb s e (IEscaped x) y.
Proof.
  intros Hy. apply leaf_good. intros src n Hn. inversion Hn as [| | | | |t s0 Ht Hb| | | ]; subst. exists 0. intros k st _ Hs Htr He. cbn [node_body]. rewrite Hb. cbn [need]. rewrite bind_ret.
  assert (E : slice (item_text (IEscaped x)) 1 (blen (item_text (IEscaped x))) = Some (lit "{{" ++ x ++ lit "}}")).
  { change (item_text (IEscaped x)) with ([92%N] ++ (lit "{{" ++ x ++ lit "}}")). pose proof (slice_mid [92%N] (lit "{{" ++ x ++ lit "}}") []) as X. rewrite app_nil_r in X.
    rewrite blen_app. exact X. }
  rewrite E. cbn [need]. rewrite bind_ret. apply (write_leaf _ false s e); auto.
Qed.
Lemma link_good scs act pb s e esc parts y : esc = true \/ pl_links (w_plat w) = false \/ rg_link (w_reg w) = None ->
  stripped s e (lit "[[" ++ link_text parts ++ lit "]]") y -> item_good scs act pb pb s e (ILink esc parts) y.
Proof.
  intros Hl Hy. apply leaf_good. intros src n Hn. inversion Hn as [| | | | | |l0 e0 p0 Hk| | ]; subst. destruct Hk as (H1 & H2 & H3 & _). exists 0. intros k st _ Hs Htr He. cbn [node_body].
  rewrite H1. cbn [need]. rewrite bind_ret. destruct esc.
  - rewrite (H3 eq_refl). cbn [need]. rewrite bind_ret. apply (write_leaf _ false s e); auto.
  - destruct Hl as [Hl|Hl]; [discriminate Hl|]. rewrite Ep, Er, H2.
    replace (match pl_links (w_plat w) with true => match rg_link (w_reg w) with Some h => link_ (tie k) en src h l0 | None => let* s0 := need (Some (item_text (ILink false parts))) in write_str en s0 false;; ret tt end | false => let* s0 := need (Some (item_text (ILink false parts))) in write_str en s0 false;; ret tt end)
      with (let* s0 := need (Some (item_text (ILink false parts))) in write_str en s0 false;; ret tt).
    2: { destruct Hl as [->| ->]; [reflexivity | destruct (pl_links (w_plat w)); reflexivity]. }
    cbn [need]. rewrite bind_ret. apply (write_leaf _ false s e); auto.
Qed.
Lemma raw_good scs act pb s e n xs hs m x m' y z :
  assoc n (rg_helpers (w_reg w)) = None -> stripped (tl_after m) (tl_before m') x y -> stripped s e y z -> item_good scs act pb pb s e (IRaw (Call (HdName n) [] xs hs) m x m') z.
Proof.
  intros Hn Hy Hz. apply leaf_good. intros src nd Hnd. inversion Hnd as [| | | | | | |b x0 m0 s0 m0' t u0 Hc Hb Ht Hx Hcs Htr Hcl Hbs| ]; subst.
  destruct (call_shape _ _ _ _ _ _ _ _ _ Hc) as (p & C1 & C2 & Hp & _).
  destruct (names_simple src p (HdName n) [] n Hp) as (_ & P2 & P3); [split; [reflexivity|]; split; [|exact I]; unfold path_text; cbn; rewrite ?app_nil_r; reflexivity|].
  exists 0. intros k st _ Hs Htrim Hend. cbn [node_body]. unfold block_. rewrite C1, C2, P2, Hb.
  assert (ER : raw_text src b st = ROk y (up_end (Some (hint_of m')) st)).
  { apply stripped_trim in Hy. unfold trimmed in Hy. unfold raw_text. rewrite Ht. cbn [node_str]. rewrite Hx, Hcl, Htr. cbn [need]. rewrite bind_ret, bind_ret, bind_ret, bind_upd. cbn [hint_of th_after th_before]. rewrite Hy. reflexivity. }
  assert (ER' : (let* s := raw_text src b in ret (Some s)) st = ROk (Some y) (up_end (Some (hint_of m')) st)) by (rewrite (bind_ok _ _ _ _ _ ER); reflexivity).
  rewrite (bind_ok _ _ _ _ _ ER'), P3. cbn [need]. rewrite bind_ret, bind_get.
  rewrite (no_helper_at w en Er scs act _ n) by (try exact Hs; exact Hn). unfold block_missing.
  set (st1 := up_end (Some (hint_of m')) st).
  destruct (write_runs y false s e scs act st1 z Hs Htrim Hz) as (q & st' & E & M & R1 & R2). exists st'. rewrite (bind_ok _ _ _ _ _ E). split; [reflexivity|].
  split; [exact M|]. split; [exact R1|]. unfold end_after. rewrite R2. reflexivity.
Qed.

(** ** Helpers and handlers that write or give a value *)
Lemma write_trim x esc st n st' : write_str en x esc st = ROk n st' -> r_trim st' = r_trim st.
Proof.
  unfold write_str. rewrite bind_get. destruct (if ts_end _ then _ else _) as [|c l]; [intros [= _ <-]; reflexivity|]. unfold emit. destruct (en_write en _ _); intros [= _ <-]. reflexivity.
Qed.
Lemma writes_value ws : forall ws' v v', writes ws v = writes ws' v' -> v = v'.
Proof.
  induction ws as [|[x esc] ws IH]; intros [|[x' esc'] ws'] v v' E; try discriminate E; [now injection E|].
  cbn [writes] in E. injection E as _ _ E. apply (IH ws'). exact (f_equal (fun g => g (HOk 0)) E).
Qed.
Lemma out_run s e p out scs act st K : helper_out w s e p out -> at_state scs act st -> r_trim st = mkTrim s e ->
  exists v st', run K en p st = ROk v st' /\ moved scs act st st' out /\ r_hint st' = r_hint st /\ r_end st' = r_end st /\ r_trim st' = r_trim st /\ (forall ws v', p = writes ws v' -> v = v').
Proof.
  intros Ho. revert st. induction Ho as [v|x esc y ws v out Hy Ho IH]; intros st Hs Ht.
  - exists v, st. split; [reflexivity|]. split; [apply moved_nil, Hs|]. do 3 (split; [reflexivity|]). intros ws v' E. destruct ws as [|[? ?] ?]; [|discriminate E]. injection E as ->. reflexivity.
  - destruct (write_runs x esc s e scs act st y Hs Ht Hy) as (q & st1 & E & M & R1 & R2).
    assert (Ht1 : r_trim st1 = mkTrim s e) by (rewrite (write_trim _ _ _ _ _ E); exact Ht).
    destruct (IH st1 (proj1 M) Ht1) as (v1 & st' & E' & M' & Q1 & Q2 & Q3 & Q4). exists v1, st'. split; [cbn [writes run]; unfold mcatch; rewrite E; exact E'|].
    split; [exact (moved_app _ _ _ _ _ _ _ M M')|]. split; [congruence|]. split; [congruence|]. split; [congruence|].
    intros ws' v' E2. destruct ws' as [|[x' esc'] ws']; [discriminate E2|]. cbn [writes] in E2. rewrite (Q4 ws v eq_refl). exact (writes_value ((x, esc) :: ws) ((x', esc') :: ws') v v' E2).
Qed.
Lemma print_runs f n vs ps text prop blk p ctx c src t site scs act st s e out K :
  acts w scs f n vs ps text prop blk p -> context_is ctx c src n vs ps text prop -> (t <> None <-> blk = true) -> at_state scs act st -> r_trim st = mkTrim s e -> helper_out w s e p out ->
  exists v st', (let* v := run K en (f ctx t) in upd pop_stack ;; ret v) (up_stack (site :: r_stack st) st) = ROk v st'
    /\ moved scs act st st' out /\ r_hint st' = r_hint st /\ r_end st' = r_end st /\ r_trim st' = r_trim st /\ (forall ws v', p = writes ws v' -> v = v').
Proof.
  intros Hp Hx Hb Hs Ht Ho.
  destruct (out_run s e p out scs (site :: act) (up_stack (site :: r_stack st) st) K Ho (at_push _ _ _ site Hs) Ht) as (v & st' & E & M & R1 & R2 & R3 & R4).
  exists v, (pop_stack st'). split; [|split; [exact (moved_pop _ _ _ _ _ _ Hs M)|auto]].
  rewrite <- (acts_run w en Ep Er Ed _ _ _ _ _ _ _ _ _ _ _ _ _ _ Hp Hx Hb _ _ (at_push _ _ _ site Hs)) in E. rewrite (bind_ok _ _ _ _ _ E), bind_upd. reflexivity.
Qed.
Lemma no_block : @None tpl <> None <-> false = true.
Proof. split; [congruence|discriminate]. Qed.
Lemma a_block (t : tpl) : Some t <> None <-> true = true.
Proof. split; [reflexivity|discriminate]. Qed.
(** a helper that is run for the call [c] *)
Lemma helper_call_runs scs act blk name f xs hs text prop p src c tg content s e out :
  helper_call w scs act blk name f xs hs text prop p -> helper_out w s e p out ->
  Forall2 (param_is Loose pe src) (c_args c) xs -> Forall2 (fun kp kv => fst kp = fst kv /\ param_is Loose pe src (snd kp) (snd kv)) (c_params c) hs ->
  target_is w tg f -> (content <> None <-> blk = true) ->
  exists N, forall k st, N <= k -> at_state scs act st -> r_trim st = mkTrim s e ->
  exists v st', invoke (tie k) en src name tg c content text prop st = ROk v st'
    /\ moved scs act st st' out /\ r_hint st' = r_hint st /\ r_end st' = r_end st /\ r_trim st' = r_trim st /\ (forall ws v', p = writes ws v' -> v = v').
Proof.
  intros (Hct & vs & pairs & ps & Ha & Hh & Hm & Hp) Ho Hxs Hhs Htg Hb. destruct (values_run w en Ep Er Ed Hf scs (site_of blk name :: act)) as (_ & VA & VH & _).
  assert (Es : site_of blk name = match content with Some _ => SBlock name | None => SHelper name end).
  { destruct content, blk; try reflexivity; exfalso; [destruct Hb as [X _]; discriminate X; discriminate|destruct Hb as [_ X]; apply X; reflexivity]. }
  destruct (invoke_runs w en Ep Er Hf scs act src name tg f c content text prop vs pairs ps (site_of blk name) Es Htg Hct (VA _ _ Ha _ _ Hxs) (VH _ _ Hh _ _ Hhs) Hm) as (N & HN).
  exists N. intros k st Hk Hs Ht. destruct (HN k st Hk Hs) as (ctx & Hx & E). rewrite E.
  exact (print_runs f name vs ps text prop blk p ctx c src content (site_of blk name) scs act st s e out (tie k) Hp Hx Hb Hs Ht Ho).
Qed.
(** a call that writes text, wherever it stands *)
Lemma print_call_runs scs act s e src pt cd c0 h t xs hs n f ws v out : call_is Loose pe src pt cd c0 (Call h t xs hs) ->
  called w scs h t n f -> helper_call w scs act false n f xs hs None None (writes ws v) -> helper_out w s e (writes ws v) out ->
  exists N, forall k st, N <= k -> at_state scs act st -> r_trim st = mkTrim s e ->
    exists st', call_ (tie k) en src c0 st = ROk v st' /\ moved scs act st st' out /\ r_hint st' = r_hint st /\ r_end st' = r_end st /\ r_trim st' = r_trim st.
Proof.
  intros Hc0 Hcl Hc Ho. destruct (call_shape _ _ _ _ _ _ _ _ _ Hc0) as (p & C1 & C2 & Hp & Hxs & Hhs).
  destruct Hcl as [n f Hnm Hf'|n f Hnm Hno Hv Hf']; destruct (names_simple _ _ _ _ _ Hp Hnm) as (E1 & E2 & E3).
  - destruct (helper_call_runs _ _ _ _ _ _ _ _ _ _ src c0 (ByName n) None s e out Hc Ho Hxs Hhs (or_introl (ex_intro _ n (conj eq_refl Hf'))) no_block) as (N & HN).
      exists N. intros k st Hk Hs Htr. destruct (HN k st Hk Hs Htr) as (v' & st' & E & M & R1 & R2 & R3 & R4). exists st'. split; [|auto].
      unfold call_. rewrite C2, E1, E2, E3. cbn [need]. rewrite bind_ret, bind_get, (a_helper_at w en Er _ _ _ _ _ Hs Hf'), <- (R4 ws v eq_refl). exact E.
  - destruct (helper_call_runs _ _ _ _ _ _ _ _ _ _ src c0 (ByRef f) None s e out Hc Ho Hxs Hhs (or_intror eq_refl) no_block) as (N & HN).
      exists N. intros k st Hk Hs Htr. destruct (HN k st Hk Hs Htr) as (v' & st' & E & M & R1 & R2 & R3 & R4). exists st'. split; [|auto].
      unfold call_. rewrite C2, E1, E2, E3. cbn [need]. rewrite bind_ret, bind_get, (no_helper_at w en Er _ _ _ _ Hs Hno), (bind_ok _ _ _ _ _ (look_none w en Ed _ _ _ _ _ _ _ Hp Hs Hv)), Er, Hf', <- (R4 ws v eq_refl). exact E.
Qed.
(** what is written for the value of a statement *)
Definition value_out (s e triple : bool) (v : option json) (out : str) : Prop :=
  match v with
  | None => out = []
  | Some v => exists x y, shown (pl_fstr (w_plat w)) v x /\ stripped s e x y /\ out = if triple then y else written (rg_escape (w_reg w)) y
  end.
Lemma print_good scs act pb s e triple m h t xs hs n f ws v out out' :
  called w scs h t n f -> helper_call w scs act false n f xs hs None None (writes ws v) -> helper_out w s e (writes ws v) out -> value_out s e triple v out' ->
  item_good scs act pb pb s e (ICall triple m false (Call h t xs hs)) (out ++ out').
Proof.
  intros Hcl Hc Ho Hv. apply leaf_good. intros src nd Hn. inversion Hn as [|c0 tr0 m0 p0 x0 u0 Hc0 He Ht Hstr| | | | | | | ]; subst.
  destruct (print_call_runs _ _ _ _ _ _ _ _ _ _ _ _ _ _ _ _ _ Hc0 Hcl Hc Ho) as (N & HN). exists (S N). intros k st Hk Hs Htr Hend. destruct k as [|k]; [lia|]. destruct (HN k st ltac:(lia) Hs Htr) as (st' & E & M & R1 & R2 & R3).
  cbn [node_body]. assert (E2 : k_stmt (tie (S k)) en src c0 st = ROk v st') by (cbn [tie k_stmt]; unfold stmt_; replace (c_partial c0) with false by (inversion Hc0; reflexivity); exact E).
  rewrite (bind_ok _ _ _ _ _ E2). destruct v as [v|].
  - destruct Hv as (x & y & Hx & Hy & ->). rewrite He. cbn [need]. rewrite bind_ret, Ep, (shown_stringify _ _ _ Hx).
    destruct (write_leaf x (negb triple) s e scs act st' y (ICall triple m false (Call h t xs hs)) (proj1 M) (eq_trans R3 Htr) (eq_trans R2 Hend) Hy eq_refl) as (st2 & E' & M' & R & R').
    exists st2. split; [exact E'|]. split; [apply (moved_app _ _ _ _ _ _ _ M); destruct triple; exact M'|]. split; [congruence|exact R'].
  - cbn in Hv. subst out'. rewrite app_nil_r. exists st'. split; [reflexivity|split; [exact M|]; split; [exact R1|]; unfold end_after; rewrite R2, Hend; reflexivity].
Qed.
Lemma dyn_print_good scs act pb s e triple m h t xs hs xs' hs' n f ws v out out' :
  called w scs h t n f -> helper_call w scs act false n f xs hs None None (writes ws v) -> helper_out w s e (writes ws v) out -> value_out s e triple v out' ->
  item_good scs act pb pb s e (IDyn triple m false (Call h t xs hs) xs' hs') (out ++ out').
Proof.
  intros Hcl Hc Ho Hv. apply leaf_good. intros src nd Hn. inversion Hn as [| |c0 tr0 m0 p0 x0 xs0 hs0 u0 Hc0 He Ht Hstr| | | | | | ]; subst.
  destruct (dyn_shape _ _ _ _ _ _ Hc0) as (sub & _ & Es & Hsub & _).
  destruct (print_call_runs _ _ _ _ _ _ _ _ _ _ _ _ _ _ _ _ _ Hsub Hcl Hc Ho) as (N & HN). exists (S (S N)). intros k st Hk Hs Htr Hend. destruct k as [|[|k]]; [lia|lia|].
  destruct (HN k st ltac:(lia) Hs Htr) as (st' & E & M & R1 & R2 & R3).
  cbn [node_body]. rewrite <- (dyn_stmt _ _ _ _ _ _ _ _ Hc0 Es) in E. rewrite (bind_ok _ _ _ _ _ E). destruct v as [v|].
  - destruct Hv as (x & y & Hx & Hy & ->). rewrite He. cbn [need]. rewrite bind_ret, Ep, (shown_stringify _ _ _ Hx).
    destruct (write_leaf x (negb triple) s e scs act st' y (IDyn triple m false (Call h t xs hs) xs' hs') (proj1 M) (eq_trans R3 Htr) (eq_trans R2 Hend) Hy eq_refl) as (st2 & E' & M' & R & R').
    exists st2. split; [exact E'|]. split; [apply (moved_app _ _ _ _ _ _ _ M); destruct triple; exact M'|]. split; [congruence|exact R'].
  - cbn in Hv. subst out'. rewrite app_nil_r. exists st'. split; [reflexivity|split; [exact M|]; split; [exact R1|]; unfold end_after; rewrite R2, Hend; reflexivity].
Qed.
Lemma link_handler_good scs act pb s e parts f p out :
  pl_links (w_plat w) = true -> rg_link (w_reg w) = Some f -> count_site (SHelper (lit "link")) act < 32 ->
  acts w scs f (lit "link") [JStr (link_arg parts 0); JStr (link_arg parts 1); JStr (link_arg parts 2)] [] None None false p -> helper_out w s e p out ->
  item_good scs act pb pb s e (ILink false parts) out.
Proof.
  intros Hl Hr Hct Hp Ho. apply leaf_good. intros src nd Hn. inversion Hn as [| | | | | |l0 e0 p0 Hk| | ]; subst. destruct Hk as (H1 & H2 & H3 & H4 & H5 & H6).
  set (c := link_call src l0 (link_arg parts 0) (link_arg parts 1) (link_arg parts 2)).
  destruct (invoke_runs w en Ep Er Hf scs act src (lit "link") (ByRef f) f c None None None
    [JStr (link_arg parts 0); JStr (link_arg parts 1); JStr (link_arg parts 2)] [] [] (SHelper (lit "link")) eq_refl (or_intror eq_refl) Hct) as (N & HN).
  { exists 0. intros k st i _ _. eexists. reflexivity. }
  { exists 0. intros k _. constructor. }
  { split; [constructor|apply Permutation_refl]. }
  exists N. intros k st Hk Hs Htr Hend. destruct (HN k st Hk Hs) as (ctx & Hx & E).
  destruct (print_runs f _ _ _ None None false p ctx c src None (SHelper (lit "link")) scs act st s e out (tie k) Hp Hx no_block Hs Htr Ho) as (v & st' & E' & M & R1 & R2 & _ & _).
  exists st'. split; [|split; [exact M|]; split; [exact R1|]; unfold end_after; rewrite R2, Hend; reflexivity].
  cbn [node_body]. rewrite H1. cbn [need]. rewrite bind_ret, Ep, Er, Hl, Hr. unfold link_. rewrite H4, H5, H6. cbn [need]. rewrite !bind_ret.
  fold c. rewrite E' in E. change link_name with (lit "link"). rewrite (bind_ok _ _ _ _ _ E). reflexivity.
Qed.
Lemma name_simple src p n : path_is src p (HdName n) [] -> path_is_simple p = true /\ path_str src p = Some n.
Proof. intros Hp. destruct (names_simple src p (HdName n) [] n Hp) as (_ & P2 & P3); [split; [reflexivity|]; split; [|exact I]; unfold path_text; cbn; rewrite ?app_nil_r; reflexivity | auto]. Qed.
Lemma raw_helper_good scs act pb s e n xs hs m x m' f y p out :
  assoc n (rg_helpers (w_reg w)) = Some f -> stripped (tl_after m) (tl_before m') x y ->
  helper_call w scs act true n f xs hs (Some y) None p -> helper_out w s e p out ->
  item_good scs act pb pb s e (IRaw (Call (HdName n) [] xs hs) m x m') out.
Proof.
  intros Hh Hy Hc Ho. apply leaf_good. intros src nd Hnd. inversion Hnd as [| | | | | | |b x0 m0 s0 m0' t u0 Hc0 Hb Ht Hx Hcs Htr Hcl Hbs| ]; subst.
  destruct (call_shape _ _ _ _ _ _ _ _ _ Hc0) as (q & C1 & C2 & Hpp & Hxs & Hhs). destruct (name_simple src q n Hpp) as (P2 & P3).
  destruct (helper_call_runs _ _ _ _ _ _ _ _ _ _ src (b_call b) (ByName n) (Some (mkTpl src (NBlock b))) s e out Hc Ho Hxs Hhs (or_introl (ex_intro _ n (conj eq_refl Hh))) (a_block _)) as (N & HN).
  exists N. intros k st Hk Hs Htrim Hend. cbn [node_body]. unfold block_. rewrite C1, C2, P2, Hb.
  assert (ER : raw_text src b st = ROk y (up_end (Some (hint_of m')) st)).
  { apply stripped_trim in Hy. unfold trimmed in Hy. unfold raw_text. rewrite Ht. cbn [node_str]. rewrite Hx, Hcl, Htr. cbn [need]. rewrite bind_ret, bind_ret, bind_ret, bind_upd. cbn [hint_of th_after th_before]. rewrite Hy. reflexivity. }
  assert (ER' : (let* s := raw_text src b in ret (Some s)) st = ROk (Some y) (up_end (Some (hint_of m')) st)) by (rewrite (bind_ok _ _ _ _ _ ER); reflexivity).
  rewrite (bind_ok _ _ _ _ _ ER'), P3. cbn [need]. rewrite bind_ret, bind_get.
  set (st1 := up_end (Some (hint_of m')) st). assert (Hs1 : at_state scs act st1) by exact Hs. destruct (HN k st1 Hk Hs1 Htrim) as (v & st' & E & M & R1 & R2 & _ & _).
  exists st'. split; [|split; [exact M|]; split; [exact R1|]; unfold end_after; rewrite R2; reflexivity].
  rewrite (a_helper_at w en Er scs act _ n f Hs1 Hh), (bind_ok _ _ _ _ _ E). reflexivity.
Qed.
(** blocks: what is common *)
Lemma block_writes scs act pb s e n xs hs m body bs m' out name tg f blk prop p :
  target_is w tg f -> helper_call w scs act blk name f xs hs None prop p -> helper_out w s e p out ->
  (forall src b p k st, path_is src p (HdName n) [] -> c_partial (b_call b) = false -> c_target (b_call b) = TPath p -> b_raw b = false -> at_state scs act st ->
     path_str src p = Some n -> path_is_simple p = true ->
     block_ (tie k) en src b st = (invoke (tie k) en src name tg (b_call b) (if blk then Some (mkTpl src (NBlock b)) else None) None prop ;; ret tt) st) ->
  item_good scs act pb pb s e (IBlock false (Call (HdName n) [] xs hs) m body bs m') out.
Proof.
  intros Htg Hc Ho Hblk. apply leaf_good. intros src nd Hnd. inversion Hnd as [| | | | | | | |b p0 x0 m0 body0 bs0 m0' u0 Hc0 Hb Hbody Hbr Htr Hcl Hbs]; subst.
  destruct (call_shape _ _ _ _ _ _ _ _ _ Hc0) as (q & C1 & C2 & Hpp & Hxs & Hhs). destruct (name_simple src q n Hpp) as (P2 & P3).
  destruct (helper_call_runs _ _ _ _ _ _ _ _ _ _ src (b_call b) tg (if blk then Some (mkTpl src (NBlock b)) else None) s e out Hc Ho Hxs Hhs Htg) as (N & HN).
  { destruct blk; [apply a_block|apply no_block]. }
  exists N. intros k st Hk Hs Htrim Hend. destruct (HN k st Hk Hs Htrim) as (v & st' & E & M & R1 & R2 & _).
  exists st'. split; [|split; [exact M|]; split; [exact R1|]; unfold end_after; rewrite R2, Hend; reflexivity].
  cbn [node_body]. rewrite (Hblk src b q k st Hpp C1 C2 Hb Hs P3 P2), (bind_ok _ _ _ _ _ E). reflexivity.
Qed.
Lemma block_helper_good scs act pb s e n xs hs m body bs m' f p out :
  assoc n (rg_helpers (w_reg w)) = Some f -> helper_call w scs act true n f xs hs None None p -> helper_out w s e p out ->
  item_good scs act pb pb s e (IBlock false (Call (HdName n) [] xs hs) m body bs m') out.
Proof.
  intros Hh Hc Ho. eapply (block_writes scs act pb s e n xs hs m body bs m' _ n (ByName n) f true); [left; eauto|exact Hc|exact Ho|].
  intros src b q k st Hpp C1 C2 Hb Hs P3 P2. unfold block_. rewrite C1, C2, P2, Hb, bind_ret, P3. cbn [need]. rewrite bind_ret, bind_get, (a_helper_at w en Er scs act _ n f Hs Hh). reflexivity.
Qed.
Lemma block_handler_good scs act pb s e n xs hs m body bs m' v f p out :
  assoc n (rg_helpers (w_reg w)) = None -> path_value (w_data w) scs (HdName n) [] v -> rg_block_missing (w_reg w) = Some f ->
  helper_call w scs act true (lit "blockHelperMissing") f xs hs None (Some (n, v)) p -> helper_out w s e p out ->
  item_good scs act pb pb s e (IBlock false (Call (HdName n) [] xs hs) m body bs m') out.
Proof.
  intros Hh Hv Hbm Hc Ho. eapply (block_writes scs act pb s e n xs hs m body bs m' _ (lit "blockHelperMissing") (ByRef f) f true); [right; reflexivity|exact Hc|exact Ho|].
  intros src b q k st Hpp C1 C2 Hb Hs P3 P2. unfold block_. rewrite C1, C2, P2, Hb, bind_ret, P3. cbn [need]. rewrite bind_ret, bind_get, (no_helper_at w en Er scs act _ n Hs Hh).
  unfold block_missing. rewrite C2. cbn [tp_src]. rewrite (bind_ok _ _ _ _ _ (look_some w en Ed src q (HdName n) [] scs act st v Hpp Hs Hv)), Er, Hbm, P3. cbn [need]. rewrite bind_ret. reflexivity.
Qed.
Lemma block_missing_handler_good scs act pb s e n xs hs m body bs m' f p out :
  assoc n (rg_helpers (w_reg w)) = None -> no_value (w_data w) scs (HdName n) [] -> rg_missing (w_reg w) = Some f ->
  helper_call w scs act false (lit "helperMissing") f xs hs None None p -> helper_out w s e p out ->
  item_good scs act pb pb s e (IBlock false (Call (HdName n) [] xs hs) m body bs m') out.
Proof.
  intros Hh Hv Hbm Hc Ho. eapply (block_writes scs act pb s e n xs hs m body bs m' _ (lit "helperMissing") (ByRef f) f false); [right; reflexivity|exact Hc|exact Ho|].
  intros src b q k st Hpp C1 C2 Hb Hs P3 P2. unfold block_. rewrite C1, C2, P2, Hb, bind_ret, P3. cbn [need]. rewrite bind_ret, bind_get, (no_helper_at w en Er scs act _ n Hs Hh).
  unfold block_missing. rewrite C2. cbn [tp_src]. rewrite (bind_ok _ _ _ _ _ (look_none w en Ed src q (HdName n) [] scs act st Hpp Hs Hv)), Er, Hbm. reflexivity.
Qed.

(** ** Blocks *)
Definition block_is (src : str) (b : block) (c : callx) (m : tildes) (body : list item) (bs : list branch) (m' : tildes) : Prop :=
  call_is Loose pe src false false (b_call b) c /\ b_raw b = false /\ Forall2 (node_is Loose pe src) (b_nodes b) body /\ branches_are Loose pe src (b_conds b) bs m'
  /\ node_trim src (NBlock b) = Some (hint_of m) /\ block_trim_close src b = Some (hint_of m').
Lemma block_good scs act pb pb' s e c m body bs m' out :
  (forall src b, block_is src b c m body bs m' -> regular w (IBlock false c m body bs m') -> forall ppl, pb_is pb ppl -> exists N ppl', pb_is pb' ppl' /\ forall k st, N <= k -> at_state scs act st -> r_partials st = ppl -> end_after st = false -> hint_after st = tl_after m ->
     exists st', block_ (tie k) en src b st = ROk tt st' /\ went scs act ppl' st st' out /\ end_after st' = false /\ (quiet w (IBlock false c m body bs m') -> hint_after st' = false)) ->
  item_good scs act pb pb' s e (IBlock false c m body bs m') out.
Proof.
  intros H src n Hn Hr ppl Hppl. inversion Hn as [| | | | | | | |b p0 x0 m0 body0 bs0 m0' u0 B1 B2 B3 B4 B5 B6 B7]; subst.
  destruct (H src b) with (ppl := ppl) as (N & ppl' & Hppl' & HN); [unfold block_is; auto 10 | exact Hr | exact Hppl |]. exists N, ppl'. split; [exact Hppl'|]. intros k st tr Hk Hs Hpb Es Ee. pose proof (trim_of _ _ _ _ _ Hn) as Tn. rewrite (node_prep _ _ _ _ _ _ _ Tn).
  destruct (prep_facts tr (mkHint (tl_before m) (tl_after m)) st scs act Hs) as (P1 & P2 & P3 & P4 & P5 & P6).
  destruct (HN k (prep tr (mkHint (tl_before m) (tl_after m)) st) Hk P1) as (st' & E & (M1 & M2 & M3) & E1 & E2).
  - rewrite P2. exact Hpb.
  - unfold end_after. rewrite P6. reflexivity.
  - unfold hint_after. rewrite P5. reflexivity.
  - exists st'. split; [exact E|]. split; [split; [exact M1|]; rewrite M3, P3; auto|]. split; [exact E1 | exact E2].
Qed.
(** a block of a helper with one argument *)
Lemma helper_good scs act pb pb' s e n f x hs v m body bs m' out :
  builtin (w_plat w) n f -> block_arg w scs act n x hs v ->
  (forall src b, block_is src b (Call (HdName n) [] [x] hs) m body bs m' -> regular w (IBlock false (Call (HdName n) [] [x] hs) m body bs m') ->
     forall ppl, pb_is pb ppl -> exists N ppl', pb_is pb' ppl' /\ forall k st ctx, N <= k -> hc_args ctx = [v] -> at_state scs (SBlock n :: act) st -> r_partials st = ppl -> end_after st = false -> hint_after st = tl_after m ->
     exists r st', run (tie k) en (f ctx (Some (mkTpl src (NBlock b)))) st = ROk r st' /\ went scs (SBlock n :: act) ppl' st st' out /\ end_after st' = false
       /\ (quiet w (IBlock false (Call (HdName n) [] [x] hs) m body bs m') -> hint_after st' = false)) ->
  item_good scs act pb pb' s e (IBlock false (Call (HdName n) [] [x] hs) m body bs m') out.
Proof.
  intros Hbi ((f' & Hb' & Hh) & Hc & Hv & pairs & ps & Hhv & Hm) H. assert (f' = f) as -> by (unfold builtin in *; congruence).
  apply block_good. intros src b Hb Hr ppl Hppl. destruct (H src b Hb Hr ppl Hppl) as (N1 & ppl' & Hppl' & H1). pose proof Hb as Hb2. destruct Hb2 as (B1 & B2 & _).
  destruct (call_shape _ _ _ _ _ _ _ _ _ B1) as (p & C1 & C2 & Hp & Ha & Hhs). destruct (name_simple src p n Hp) as (P2 & P3).
  destruct (values_run w en Ep Er Ed Hf scs (SBlock n :: act)) as (_ & VA & VH & _).
  destruct (invoke_runs w en Ep Er Hf scs act src n (ByName n) f (b_call b) (Some (mkTpl src (NBlock b))) None None [v] pairs ps (SBlock n) eq_refl (or_introl (ex_intro _ n (conj eq_refl Hh))) Hc) as (N2 & H2).
  { apply (VA [x] [v]); [constructor; [exact Hv | constructor] | exact Ha]. }
  { exact (VH _ _ Hhv _ _ Hhs). }
  { exact Hm. }
  exists (N1 + N2), ppl'. split; [exact Hppl'|]. intros k st Hk Hs Hpb Hend Hhint. destruct (H2 k st ltac:(lia) Hs) as (ctx & Hctx & Ei).
  destruct (H1 k (up_stack (SBlock n :: r_stack st) st) ctx ltac:(lia)) as (r & st' & Er' & M & E1 & E2); [apply Hctx | apply at_push, Hs | exact Hpb | exact Hend | exact Hhint |].
  exists (pop_stack st'). split; [|split; [exact (went_pop _ _ _ _ _ _ _ Hs M)|]; split; [exact E1 | exact E2]].
  unfold block_. rewrite C1, C2, P2, B2. rewrite bind_ret, P3. cbn [need]. rewrite bind_ret, bind_get, (a_helper_at w en Er scs act _ n f Hs Hh).
  unfold bind at 1. rewrite Ei, (bind_ok _ _ _ _ _ Er'). reflexivity.
Qed.
(** the body of a block as a template *)
Lemma main_node src b c m body bs m' : Forall2 (node_is Loose pe src) (b_nodes b) body -> node_trim src (NBlock b) = Some (hint_of m) -> block_trim_close src b = Some (hint_of m') ->
  regular w (IBlock false c m body bs m') -> body_node src (NBlock b) (tl_after m) (tl_before (next_tag bs m')) body.
Proof.
  intros H1 H2 H3 Hr. inversion Hr as [| | | | | | | | | |c0 m0 body0 bs0 m0' R1 R2 R3 R4 R5 R6 R7|]; subst. exists b, m, (hint_of m'). split; [reflexivity|]. split; [exact H2|]. split; [exact H3|].
  split; [exact H1|]. split; [exact R6|]. split; [reflexivity|]. split; [destruct bs as [|x r]; [reflexivity | symmetry; apply R2]|]. split; [exact R1|]. intros T. apply R3, T.
Qed.
Lemma quiet_block p c m body bs m' : quiet w (IBlock p c m body bs m') -> tl_after m = false /\ quiet_body w body /\ Forall (fun b => quiet_body w (br_body b)) bs.
Proof.
  unfold quiet. cbn [loud includes_partial]. rewrite !orb_false_iff. intros [[[[H1 H2] H3] H4] H5]. split; [exact H1|]. split.
  - split; [exact H3|]. destruct H5 as [[[_ H5] _]|H5]; auto.
  - rewrite Forall_forall. intros b Hb. split.
    + destruct (existsb loud (br_body b)) eqn:E; [|reflexivity]. exfalso. assert (X : existsb (fun b : option callx * tildes * list item => tl_after (snd (fst b)) || existsb loud (snd b)) bs = true); [|congruence].
      apply existsb_exists. exists b. split; [exact Hb|]. unfold br_body in E. rewrite E. apply orb_true_r.
    + destruct H5 as [[[_ _] H5]|H5]; [|auto]. left. destruct (existsb includes_partial (br_body b)) eqn:E; [|reflexivity]. exfalso.
      assert (X : existsb (fun b : option callx * tildes * list item => existsb includes_partial (snd b)) bs = true); [|congruence]. apply existsb_exists. exists b. auto.
Qed.

(** ** The else branch *)
Definition else_good (scs : list scope) (act : list site) (pb pb' : option (list item)) (m' : tildes) (r : option (branch * list branch)) (out : str) : Prop :=
  match r with
  | None => out = [] /\ pb' = pb
  | Some (b, post) => forall src n, body_node src n (tl_after (br_tildes b)) (tl_before (next_tag post m')) (br_body b) -> body_good scs act pb pb' (tl_after (br_tildes b)) (br_body b) src n out
  end.
Definition found (src : str) (m' : tildes) (r : option (branch * list branch)) (o : option node) : Prop :=
  match r, o with
  | None, None => True
  | Some (b, post), Some n => exists cs, branches_are Loose pe src (n :: cs) (b :: post) m'
  | _, _ => False
  end.
Lemma cond_not_empty src c x : call_is Loose pe src false true c x -> call_is_empty c = false.
Proof.
  intros H. inversion H as [pt cd op cl p args params ln h t xs hs Hp Ha Hh]; subst. destruct Hp as (Hc & _). cbn [call_is_empty]. unfold path_is_empty. destruct (pa_comps p); [|reflexivity]. cbn in Hc. injection Hc as Hc. destruct h; discriminate Hc.
Qed.
Definition inv_runs (scs : list scope) (act : list site) (src : str) (alt : option node) (cs : list node) (o : option node) : Prop :=
  exists N, forall k st, N <= k -> at_state scs act st -> inverse_go (tie k) en src alt cs st = ROk o st.
Lemma cond_runs scs act src c x v : call_is Loose pe src false true c x -> call_value w scs act x v -> exists N, forall k st, N <= k -> at_state scs act st -> k_call (tie k) en src c st = ROk v st.
Proof.
  intros Hc Hv. destruct (values_run w en Ep Er Ed Hf scs act) as (_ & _ & _ & V). destruct (V _ _ Hv _ _ _ _ Hc) as (N & HN). exists (S N). intros k st Hk Hs. destruct k as [|k]; [lia|]. cbn [tie k_call]. apply HN; [lia | exact Hs].
Qed.
(** a branch whose condition fails is passed over *)
Lemma skip_branch scs act src b cs x m' rest alt o : branches_are Loose pe src (b :: cs) (x :: rest) m' -> cond_fails w scs act x ->
  inv_runs scs act src (match br_cond x with None => Some b | Some _ => alt end) cs o -> inv_runs scs act src alt (b :: cs) o.
Proof.
  intros H Hx (N & HN). inversion H as [|b0 cond m body bs0 rest0 m0 H1 H2 H3 H4 H5 H6 H7]; subst. cbn [br_cond fst] in *. destruct cond as [c|].
  - destruct (Hx c eq_refl) as (v & Hv & Nv). destruct (cond_runs _ _ _ _ _ _ H1 Hv) as (N' & HN'). exists (N + N'). intros k st Hk Hs. cbn [inverse_go]. rewrite (cond_not_empty _ _ _ H1).
    rewrite (bind_ok _ _ _ _ _ (HN' k st ltac:(lia) Hs)). destruct v as [v|]; [|apply HN; [lia | exact Hs]]. rewrite holds_spec in Nv. destruct (is_truthy v); [contradiction Nv; reflexivity|]. apply HN; [lia | exact Hs].
  - exists N. intros k st Hk Hs. cbn [inverse_go]. rewrite H1. apply HN; assumption.
Qed.
Lemma rest_runs scs act src m' bs : forall cs alt, branches_are Loose pe src cs bs m' -> Forall (cond_fails w scs act) bs -> (forall x, In x bs -> br_cond x <> None) -> inv_runs scs act src alt cs alt.
Proof.
  induction bs as [|x bs IH]; intros cs alt H Hp Hn; inversion H as [|b0 cond m body bs0 rest0 m0 H1 H2 H3 H4 H5 H6 H7]; subst.
  - exists 0. intros k st _ _. reflexivity.
  - inversion Hp; subst. apply (skip_branch _ _ _ _ _ _ _ _ _ _ H); [assumption|]. cbn [br_cond fst]. destruct cond; [|exfalso; apply (Hn (None, m, body)); [left; reflexivity | reflexivity]].
    apply IH; [exact H7 | assumption | intros y Hy; apply Hn; right; exact Hy].
Qed.
Lemma cond_found scs act src m' b post c v pre : forall cs alt, branches_are Loose pe src cs (pre ++ b :: post) m' -> Forall (cond_fails w scs act) pre -> br_cond b = Some c -> call_value w scs act c v -> holds v ->
  exists n, found src m' (Some (b, post)) (Some n) /\ inv_runs scs act src alt cs (Some n).
Proof.
  induction pre as [|x pre IH]; intros cs alt H Hp Hc Hv Hh; cbn [app] in H; inversion H as [|b0 cond m body bs0 rest0 m0 H1 H2 H3 H4 H5 H6 H7]; subst.
  - exists (NBlock b0). split; [exists bs0; exact H|]. cbn [br_cond fst] in Hc. subst cond. destruct (cond_runs _ _ _ _ _ _ H1 Hv) as (N & HN). exists N. intros k st Hk Hs. cbn [inverse_go].
    rewrite (cond_not_empty _ _ _ H1), (bind_ok _ _ _ _ _ (HN k st Hk Hs)). destruct v as [v|]; [|contradiction (not_holds_none Hh)]. apply holds_spec in Hh. rewrite Hh. reflexivity.
  - inversion Hp; subst. destruct (IH bs0 (match cond with None => Some (NBlock b0) | Some _ => alt end) H7 ltac:(assumption) Hc Hv Hh) as (n & F & R). exists n. split; [exact F|]. apply (skip_branch _ _ _ _ _ _ _ _ _ _ H); assumption.
Qed.
Lemma plain_found scs act src m' b post pre : forall cs alt, branches_are Loose pe src cs (pre ++ b :: post) m' -> Forall (cond_fails w scs act) (pre ++ b :: post) -> br_cond b = None -> (forall x, In x post -> br_cond x <> None) ->
  exists n, found src m' (Some (b, post)) (Some n) /\ inv_runs scs act src alt cs (Some n).
Proof.
  induction pre as [|x pre IH]; intros cs alt H Hp Hc Hpost; cbn [app] in *; inversion Hp; subst; inversion H as [|b0 cond m body bs0 rest0 m0 H1' H2' H3' H4' H5' H6' H7']; subst.
  - exists (NBlock b0). split; [exists bs0; exact H|]. cbn [br_cond fst] in Hc. subst cond. apply (skip_branch _ _ _ _ _ _ _ _ _ _ H); [assumption|]. eapply rest_runs; eassumption.
  - destruct (IH bs0 (match cond with None => Some (NBlock b0) | Some _ => alt end) H7' ltac:(assumption) Hc Hpost) as (n & F & R). exists n. split; [exact F|]. apply (skip_branch _ _ _ _ _ _ _ _ _ _ H); assumption.
Qed.
Lemma inverse_found scs act src m' cs bs r : branches_are Loose pe src cs bs m' -> else_branch w scs act bs r ->
  exists o, found src m' r o /\ inv_runs scs act src None cs o.
Proof.
  intros H Hr. destruct Hr as [pre b post c v E Hp Hc Hv Hh|pre b post E Hp Hc Hpost|Hp Hc]; subst.
  - destruct (cond_found scs act src m' b post c v pre cs None H Hp Hc Hv Hh) as (n & X). exists (Some n). exact X.
  - destruct (plain_found scs act src m' b post pre cs None H Hp Hc Hpost) as (n & X). exists (Some n). exact X.
  - exists None. split; [exact I|]. eapply rest_runs; eassumption.
Qed.
Lemma branch_node src c m body bs m' b post n cs pre : regular w (IBlock false c m body bs m') -> bs = pre ++ b :: post -> branches_are Loose pe src (n :: cs) (b :: post) m' ->
  body_node src n (tl_after (br_tildes b)) (tl_before (next_tag post m')) (br_body b).
Proof.
  intros Hr E H. inversion Hr as [| | | | | | | | | |c0 m0 body0 bs0 m0' R1 R2 R3 R4 R5 R6 R7|]; subst. inversion H as [|b0 cond mb bodyb bs0 rest0 mb' H1 H2 H3 H4 H5 H6 H7]; subst.
  exists b0, mb, (match post with [] => hint_of m' | _ => mkHint false false end). split; [reflexivity|]. split; [exact H5|]. split; [exact H6|]. split; [exact H4|].
  assert (In (cond, mb, bodyb) (pre ++ (cond, mb, bodyb) :: post)) as Hin by (apply in_or_app; right; left; reflexivity).
  rewrite Forall_forall in R4, R7. split; [exact (R7 _ Hin)|]. split; [reflexivity|]. split; [|split; [|exact (R4 _ Hin)]].
  - destruct post as [|y post]; [reflexivity|]. cbn [next_tag th_before]. symmetry.
    assert (Y : Forall (fun x : branch => tl_before (br_tildes x) = false) (tl (pre ++ (cond, mb, bodyb) :: y :: post))) by (destruct (pre ++ (cond, mb, bodyb) :: y :: post); [constructor | apply R2]).
    rewrite Forall_forall in Y. apply Y. destruct pre as [|z pre]; [left; reflexivity|]. cbn [app tl]. apply in_or_app. right. right. left. reflexivity.
  - destruct post; [exact R1 | reflexivity].
Qed.

Definition else_prog (t : tpl) : hprog :=
  HInverse t (htry (fun n => match n with Some n => HTemplate n (htry (fun _ => HRet None)) | None => HRet None end)).
Lemma body_prog K en0 t st : run K en0 (HTemplate t (htry (fun _ => HRet None))) st = (template_ K en0 t ;; ret None) st.
Proof. apply try_ret. Qed.
Lemma else_runs scs act pb pb' src b c m body bs m' r out : block_is src b c m body bs m' -> regular w (IBlock false c m body bs m') ->
  else_branch w scs act bs r -> else_good scs act pb pb' m' r out ->
  forall ppl, pb_is pb ppl -> exists N ppl', pb_is pb' ppl' /\ forall k st, N <= k -> at_state scs act st -> r_partials st = ppl -> end_after st = false -> hint_after st = tl_after m ->
  exists st', run (tie k) en (else_prog (mkTpl src (NBlock b))) st = ROk None st' /\ went scs act ppl' st st' out /\ end_after st' = false
    /\ (quiet w (IBlock false c m body bs m') -> hint_after st' = false).
Proof.
  intros (B1 & B2 & B3 & B4 & B5 & B6) Hr He Hg ppl Hppl. destruct (inverse_found _ _ _ _ _ _ _ B4 He) as (o & Fo & N1 & H1).
  assert (E0 : forall k st, N1 <= k -> at_state scs act st -> run (tie k) en (else_prog (mkTpl src (NBlock b))) st
     = match o with Some n => (template_ (tie k) en (mkTpl src n) ;; ret None) st | None => ROk None st end).
  { intros k st Hk Hs. unfold else_prog. cbn [run]. rewrite try_ret. unfold inverse. cbn [tp_node tp_src].
    assert (E : (let* n := inverse_go (tie k) en src None (b_conds b) in ret (match n with Some n => Some (mkTpl src n) | None => None end)) st = ROk (match o with Some n => Some (mkTpl src n) | None => None end) st) by (rewrite (bind_ok _ _ _ _ _ (H1 k st Hk Hs)); reflexivity).
    rewrite (bind_ok _ _ _ _ _ E). destruct o as [n|]; [apply body_prog | reflexivity]. }
  destruct r as [[x post]|], o as [n|]; try contradiction.
  - destruct Fo as (cs & Hcs). assert (exists pre, bs = pre ++ x :: post) as (pre & Ebs) by (inversion He; subst; eauto).
    pose proof (branch_node _ _ _ _ _ _ _ _ _ _ _ Hr Ebs Hcs) as Hn. destruct (Hg src n Hn ppl Hppl) as (N2 & ppl' & Hppl' & H2). exists (N1 + N2), ppl'. split; [exact Hppl'|]. intros k st Hk Hs Hpb Hend Hhint. rewrite E0 by (try lia; exact Hs).
    inversion Hr as [| | | | | | | | | |c0 m0 body0 bs0 m0' R1 R2 R3 R4 R5 R6 R7|]; subst.
    assert (In x (pre ++ x :: post)) as Hin by (apply in_or_app; right; left; reflexivity).
    destruct (H2 k st ltac:(lia) Hs eq_refl Hend) as (st' & E & M & E1 & E2).
    { rewrite Hhint. intros T. destruct (R3 T) as [_ X]. rewrite Forall_forall in X. exact (X _ Hin). }
    exists st'. rewrite (bind_ok _ _ _ _ _ E). split; [reflexivity|]. split; [exact M|]. split; [exact E1|]. intros Hq. destruct (quiet_block _ _ _ _ _ _ Hq) as (Q1 & Q2 & Q3).
    apply E2; [rewrite Forall_forall in Q3; exact (Q3 _ Hin) | rewrite Hhint; exact Q1].
  - cbn [else_good] in Hg. destruct Hg as [-> ->]. exists N1, ppl. split; [exact Hppl|]. intros k st Hk Hs Hpb Hend Hhint. rewrite E0 by assumption. exists st. split; [reflexivity|]. split; [apply went_nil; assumption|]. split; [exact Hend|].
    intros Hq. destruct (quiet_block _ _ _ _ _ _ Hq) as (Q1 & _). congruence.
Qed.
(** the main body *)
Lemma main_runs scs act pb pb' src b c m body bs m' out : block_is src b c m body bs m' -> regular w (IBlock false c m body bs m') ->
  items_good scs act pb pb' (tl_after m) (tl_before (next_tag bs m')) body out ->
  forall ppl, pb_is pb ppl -> exists N ppl', pb_is pb' ppl' /\ forall k st, N <= k -> at_state scs act st -> r_partials st = ppl -> end_after st = false -> hint_after st = tl_after m ->
  exists st', template_ (tie k) en (mkTpl src (NBlock b)) st = ROk tt st' /\ went scs act ppl' st st' out /\ end_after st' = false
    /\ (quiet w (IBlock false c m body bs m') -> hint_after st' = false).
Proof.
  intros (B1 & B2 & B3 & B4 & B5 & B6) Hr Hg ppl Hppl. destruct (body_runs _ _ _ _ _ _ _ _ _ _ Hg (main_node _ _ _ _ _ _ _ B3 B5 B6 Hr) ppl Hppl) as (N & ppl' & Hppl' & HN). exists N, ppl'. split; [exact Hppl'|]. intros k st Hk Hs Hpb Hend Hhint.
  destruct (HN k st Hk Hs Hpb Hend ltac:(congruence)) as (st' & E & M & E1 & E2). exists st'. split; [exact E|]. split; [exact M|]. split; [exact E1|].
  intros Hq. destruct (quiet_block _ _ _ _ _ _ Hq) as (Q1 & Q2 & _). apply E2; [exact Q2 | congruence].
Qed.
Lemma if_good scs act pb pb' s e x hs m body bs m' v out : block_arg w scs act (lit "if") x hs v ->
  ~ falsy v -> items_good scs (SBlock (lit "if") :: act) pb pb' (tl_after m) (tl_before (next_tag bs m')) body out ->
  item_good scs act pb pb' s e (IBlock false (Call (HdName (lit "if")) [] [x] hs) m body bs m') out.
Proof.
  intros Hv Hfv Hg. eapply helper_good; [reflexivity | exact Hv |]. intros src b Hbk Hr ppl Hppl. destruct (main_runs _ _ _ _ _ _ _ _ _ _ _ _ Hbk Hr Hg ppl Hppl) as (N & ppl' & Hppl' & HN).
  exists N, ppl'. split; [exact Hppl'|]. intros k st ctx Hk Ha Hs Hpb Hend Hhint. destruct (HN k st Hk Hs Hpb Hend Hhint) as (st' & E & R). exists None, st'. split; [|exact R].
  unfold if_helper. args Ha. rewrite <- truthy_falsy in Hfv. destruct (is_truthy v); [|congruence]. rewrite body_prog, (bind_ok _ _ _ _ _ E). reflexivity.
Qed.
Lemma if_else_good scs act pb pb' s e x hs m body bs m' v r out : block_arg w scs act (lit "if") x hs v ->
  falsy v -> else_branch w scs (SBlock (lit "if") :: act) bs r -> else_good scs (SBlock (lit "if") :: act) pb pb' m' r out ->
  item_good scs act pb pb' s e (IBlock false (Call (HdName (lit "if")) [] [x] hs) m body bs m') out.
Proof.
  intros Hv Hfv He Hg. eapply helper_good; [reflexivity | exact Hv |]. intros src b Hbk Hr ppl Hppl. destruct (else_runs _ _ _ _ _ _ _ _ _ _ _ _ _ Hbk Hr He Hg ppl Hppl) as (N & ppl' & Hppl' & HN).
  exists N, ppl'. split; [exact Hppl'|]. intros k st ctx Hk Ha Hs Hpb Hend Hhint. destruct (HN k st Hk Hs Hpb Hend Hhint) as (st' & E & R). exists None, st'. split; [|exact R].
  unfold if_helper. args Ha. rewrite <- truthy_falsy in Hfv. rewrite Hfv. exact E.
Qed.
Lemma unless_good scs act pb pb' s e x hs m body bs m' v out : block_arg w scs act (lit "unless") x hs v ->
  falsy v -> items_good scs (SBlock (lit "unless") :: act) pb pb' (tl_after m) (tl_before (next_tag bs m')) body out ->
  item_good scs act pb pb' s e (IBlock false (Call (HdName (lit "unless")) [] [x] hs) m body bs m') out.
Proof.
  intros Hv Hfv Hg. eapply helper_good; [reflexivity | exact Hv |]. intros src b Hbk Hr ppl Hppl. destruct (main_runs _ _ _ _ _ _ _ _ _ _ _ _ Hbk Hr Hg ppl Hppl) as (N & ppl' & Hppl' & HN).
  exists N, ppl'. split; [exact Hppl'|]. intros k st ctx Hk Ha Hs Hpb Hend Hhint. destruct (HN k st Hk Hs Hpb Hend Hhint) as (st' & E & R). exists None, st'. split; [|exact R].
  unfold unless_helper. args Ha. rewrite <- truthy_falsy in Hfv. rewrite Hfv. cbn [negb]. rewrite body_prog, (bind_ok _ _ _ _ _ E). reflexivity.
Qed.
Lemma unless_else_good scs act pb pb' s e x hs m body bs m' v r out : block_arg w scs act (lit "unless") x hs v ->
  ~ falsy v -> else_branch w scs (SBlock (lit "unless") :: act) bs r -> else_good scs (SBlock (lit "unless") :: act) pb pb' m' r out ->
  item_good scs act pb pb' s e (IBlock false (Call (HdName (lit "unless")) [] [x] hs) m body bs m') out.
Proof.
  intros Hv Hfv He Hg. eapply helper_good; [reflexivity | exact Hv |]. intros src b Hbk Hr ppl Hppl. destruct (else_runs _ _ _ _ _ _ _ _ _ _ _ _ _ Hbk Hr He Hg ppl Hppl) as (N & ppl' & Hppl' & HN).
  exists N, ppl'. split; [exact Hppl'|]. intros k st ctx Hk Ha Hs Hpb Hend Hhint. destruct (HN k st Hk Hs Hpb Hend Hhint) as (st' & E & R). exists None, st'. split; [|exact R].
  unfold unless_helper. args Ha. rewrite <- truthy_falsy in Hfv. destruct (is_truthy v); [|congruence]. exact E.
Qed.
Lemma with_good scs act pb pb' s e x hs m body bs m' v out : block_arg w scs act (lit "with") x hs v ->
  v <> JNull -> items_good (mkScope (Some v) [] :: scs) (SBlock (lit "with") :: act) pb pb' (tl_after m) (tl_before (next_tag bs m')) body out ->
  item_good scs act pb pb' s e (IBlock false (Call (HdName (lit "with")) [] [x] hs) m body bs m') out.
Proof.
  intros Hv Hnv Hg. eapply helper_good; [reflexivity | exact Hv |]. intros src b Hbk Hr ppl Hppl. destruct (main_runs _ _ _ _ _ _ _ _ _ _ _ _ Hbk Hr Hg ppl Hppl) as (N & ppl' & Hppl' & HN).
  exists N, ppl'. split; [exact Hppl'|]. intros k st ctx Hk Ha Hs Hpb Hend Hhint. destruct (HN k (up_scopes (mkScope (Some v) [] :: r_scopes st) st) Hk (at_scope _ _ _ _ Hs) Hpb Hend Hhint) as (st' & E & M & R).
  destruct (went_scope _ _ _ _ _ _ _ Hs M) as [M' Sc]. exists None, (up_scopes scs st'). split; [|split; [exact M' | exact R]].
  unfold with_helper. args Ha. assert (G : ctx_get ctx 0 = Some v) by (unfold ctx_get; rewrite Ha; reflexivity). rewrite G.
  assert (X : run (tie k) en (HPushScope scope_new (HScopeMut (set_base_value v) (HTemplate (mkTpl src (NBlock b)) (htry (fun _ => HPopScope (fun _ => HRet None)))))) st = ROk None (up_scopes scs st')).
  { cbn [run]. rewrite bind_upd, bind_upd. cbn [r_scopes up_scopes]. rewrite try_ret. change (set_base_value v scope_new) with (mkScope (Some v) []).
    change (up_scopes (mkScope (Some v) [] :: r_scopes st) (up_scopes (scope_new :: r_scopes st) st)) with (up_scopes (mkScope (Some v) [] :: r_scopes st) st).
    rewrite (bind_ok _ _ _ _ _ E). cbn [run]. rewrite bind_get, Sc. reflexivity. }
  destruct v; try exact X. contradiction Hnv; reflexivity.
Qed.
Lemma with_null_good scs act pb s e x hs m body bs m' : block_arg w scs act (lit "with") x hs JNull ->
  item_good scs act pb pb s e (IBlock false (Call (HdName (lit "with")) [] [x] hs) m body bs m') [].
Proof.
  intros Hv. eapply helper_good; [reflexivity | exact Hv |]. intros src b Hbk Hr ppl Hppl.
  exists 0, ppl. split; [exact Hppl|]. intros k st ctx Hk Ha Hs Hpb Hend Hhint. exists None, st. split; [|split; [apply went_nil; assumption|]; split; [exact Hend|]].
  - unfold with_helper. args Ha. assert (G : ctx_get ctx 0 = Some JNull) by (unfold ctx_get; rewrite Ha; reflexivity). rewrite G. reflexivity.
  - intros Hq. destruct (quiet_block _ _ _ _ _ _ Hq) as (Q1 & _). congruence.
Qed.
(** ** each *)
Definition rounds_good (its scs : list scope) (act : list site) (pb pb' : option (list item)) (s e : bool) (l : list item) (out : str) : Prop :=
  forall src n, body_node src n s e l -> s = true \/ quiet_body w l -> forall ppl, pb_is pb ppl -> exists N ppl', pb_is pb' ppl' /\ forall k st, N <= k -> at_state scs act st -> r_partials st = ppl -> end_after st = false -> (hint_after st = true -> s = true) ->
  exists st', rounds_ok (template_ (tie k) en (mkTpl src n)) its st st' /\ went scs act ppl' st st' out /\ end_after st' = false /\ (quiet_body w l -> hint_after st = false -> hint_after st' = false).
Lemma rounds_none scs act pb s e l : rounds_good [] scs act pb pb s e l [].
Proof. intros src n _ _ ppl Hppl. exists 0, ppl. split; [exact Hppl|]. intros k st _ Hs Hpb He Hh. exists st. split; [constructor|]. split; [apply went_nil; assumption|]. auto. Qed.
Lemma rounds_next sc its scs act pb pb1 pb' s e l o o' : items_good (sc :: scs) act pb pb1 s e l o -> rounds_good its scs act pb1 pb' s e l o' -> rounds_good (sc :: its) scs act pb pb' s e l (o ++ o').
Proof.
  intros H1 H2 src n Hn Hq ppl Hppl. destruct (body_runs _ _ _ _ _ _ _ _ _ _ H1 Hn ppl Hppl) as (N1 & pp1 & Hpp1 & G1). destruct (H2 src n Hn Hq pp1 Hpp1) as (N2 & pp2 & Hpp2 & G2). exists (N1 + N2), pp2. split; [exact Hpp2|]. intros k st Hk Hs Hpb He Hh.
  destruct (G1 k (up_scopes (sc :: r_scopes st) st) ltac:(lia) (at_scope _ _ _ _ Hs) Hpb He Hh) as (s1 & E1 & M1 & F1 & Q1).
  destruct (went_scope _ _ _ _ _ _ _ Hs M1) as [M1' Sc]. destruct (G2 k (up_scopes scs s1) ltac:(lia)) as (s2 & E2 & M2 & F2 & Q2).
  - apply M1'.
  - apply M1'.
  - exact F1.
  - destruct Hq as [->|Hq]; [reflexivity|]. destruct s; [reflexivity|]. change (hint_after (up_scopes scs s1)) with (hint_after s1). intros T. rewrite (Q1 Hq) in T; [discriminate T|].
    change (hint_after (up_scopes (sc :: r_scopes st) st)) with (hint_after st). destruct (hint_after st); [|reflexivity]. discriminate (Hh eq_refl).
  - assert (Es : r_scopes st = scs) by apply Hs. exists s2. split; [|split; [exact (went_app _ _ _ _ _ _ _ _ _ M1' M2)|]; split; [exact F2|]].
    + econstructor; [exact E1 | rewrite Es; exact Sc |]. rewrite Es. exact E2.
    + intros Hq' Hh'. apply Q2; [exact Hq'|]. exact (Q1 Hq' Hh').
Qed.
Lemma each_good scs act pb pb' s e x hs m body bs m' v its out : block_arg w scs act (lit "each") x hs v ->
  iterations_of v its -> rounds_good its scs (SBlock (lit "each") :: act) pb pb' (tl_after m) (tl_before (next_tag bs m')) body out ->
  item_good scs act pb pb' s e (IBlock false (Call (HdName (lit "each")) [] [x] hs) m body bs m') out.
Proof.
  intros Hv Hit Hg. eapply helper_good; [reflexivity | exact Hv |]. intros src b (B1 & B2 & B3 & B4 & B5 & B6) Hr ppl Hppl.
  pose proof (main_node _ _ _ _ _ _ _ B3 B5 B6 Hr) as Hn. inversion Hr as [| | | | | | | | | |c0 m0 body0 bs0 m0' R1 R2 R3 R4 R5 R6 R7|]; subst.
  destruct (Hg src (NBlock b) Hn) with (ppl := ppl) as (N & ppl' & Hppl' & HN); [apply R5; reflexivity|exact Hppl|].
  exists N, ppl'. split; [exact Hppl'|]. intros k st ctx Hk Ha Hs Hpb Hend Hhint. destruct (HN k st Hk Hs Hpb Hend ltac:(congruence)) as (st' & E & M & F & Q). exists None, st'. split; [|split; [exact M|]; split; [exact F|]].
  - unfold each_helper. args Ha. destruct Hit as [(l & -> & ->)|[(l & -> & ->)|(N1 & N2 & ->)]].
    + cbn [run]. rewrite bind_upd. apply arr_rounds; [reflexivity | left; reflexivity | exact E].
    + cbn [run]. rewrite bind_upd. apply (obj_rounds _ _ _ (length l)); [reflexivity | left; reflexivity | exact E].
    + inversion E; subst. cbn [run]. rewrite bind_upd. destruct v; try (cbn; rewrite up_scopes_same; reflexivity); try (destruct st'; reflexivity); [contradiction (N1 l); reflexivity | contradiction (N2 l); reflexivity].
  - intros Hq. destruct (quiet_block _ _ _ _ _ _ Hq) as (Q1 & Q2 & _). apply Q; [exact Q2 | congruence].
Qed.
(** ** blocks without helper *)
Lemma plain_block_good scs act pb pb' s e n xs hs m body bs m' v out : assoc n (rg_helpers (w_reg w)) = None -> rg_block_missing (w_reg w) = None -> path_value (w_data w) scs (HdName n) [] v ->
  items_good scs act pb pb' (tl_after m) (tl_before (next_tag bs m')) body out ->
  item_good scs act pb pb' s e (IBlock false (Call (HdName n) [] xs hs) m body bs m') out.
Proof.
  intros Hh Hbm Hv Hg. apply block_good. intros src b Hbk Hr ppl Hppl. destruct (main_runs _ _ _ _ _ _ _ _ _ _ _ _ Hbk Hr Hg ppl Hppl) as (N & ppl' & Hppl' & HN). destruct Hbk as (B1 & B2 & _).
  destruct (call_shape _ _ _ _ _ _ _ _ _ B1) as (p & C1 & C2 & Hp & _). destruct (name_simple src p n Hp) as (P2 & P3).
  exists N, ppl'. split; [exact Hppl'|]. intros k st Hk Hs Hpb Hend Hhint. destruct (HN k st Hk Hs Hpb Hend Hhint) as (st' & E & R). exists st'. split; [|exact R].
  unfold block_. rewrite C1, C2, P2, B2, bind_ret, P3. cbn [need]. rewrite bind_ret, bind_get, (no_helper_at w en Er scs act _ n Hs Hh). unfold block_missing. rewrite C2. cbn [tp_src].
  rewrite (bind_ok _ _ _ _ _ (look_some w en Ed src p (HdName n) [] scs act st v Hp Hs Hv)), Er, Hbm. exact E.
Qed.
Lemma missing_block_good scs act pb s e n xs hs m body bs m' : assoc n (rg_helpers (w_reg w)) = None -> rg_missing (w_reg w) = None -> rg_strict (w_reg w) = false -> no_value (w_data w) scs (HdName n) [] ->
  item_good scs act pb pb s e (IBlock false (Call (HdName n) [] xs hs) m body bs m') [].
Proof.
  intros Hh Hm Hst Hv. apply block_good. intros src b Hbk Hr ppl Hppl. destruct Hbk as (B1 & B2 & _).
  destruct (call_shape _ _ _ _ _ _ _ _ _ B1) as (p & C1 & C2 & Hp & _). destruct (name_simple src p n Hp) as (P2 & P3).
  exists 0, ppl. split; [exact Hppl|]. intros k st Hk Hs Hpb Hend Hhint. exists st. split; [|split; [apply went_nil; assumption|]; split; [exact Hend|]].
  - unfold block_. rewrite C1, C2, P2, B2, bind_ret, P3. cbn [need]. rewrite bind_ret, bind_get, (no_helper_at w en Er scs act _ n Hs Hh). unfold block_missing. rewrite C2. cbn [tp_src].
    rewrite (bind_ok _ _ _ _ _ (look_none w en Ed src p (HdName n) [] scs act st Hp Hs Hv)), Er, Hm, Hst. reflexivity.
  - intros Hq. destruct (quiet_block _ _ _ _ _ _ Hq) as (Q1 & _). congruence.
Qed.
(** ** partials *)
Lemma compiled o d s te : doc_ok pe d -> doc_writes Loose d s -> template_compile (w_plat w) o s = AOk te ->
  exists ns, te_tpl te = mkTpl s (NDoc ns) /\ Forall2 (node_is Loose pe s) ns d.
Proof.
  intros Hd Hdw H. destruct (compile_printed Loose pe o d s Hd Hdw) as (ns & fs & E & Hn). unfold template_compile in H. rewrite E in H. injection H as <-. exists ns. split; [reflexivity | exact Hn].
Qed.
Lemma partial_text_name src p h t n k c : path_is src p h t -> c_target c = TPath p -> partial_name h t n -> forall st, get_partial_name (tie k) en src c st = ROk n st.
Proof.
  intros Hp C2 (En & Hn) st. unfold get_partial_name. rewrite C2. destruct Hp as (_ & _ & _ & _ & _ & _ & Hs & Es). rewrite Es, <- En. cbn [need]. rewrite bind_ret.
  destruct (streq n partial_block) eqn:E1; [apply streq_eq in E1; rewrite E1; reflexivity|].
  destruct Hn as [(Ht & _ & Hh)|Hn]; [|rewrite Hn in E1; discriminate E1]. subst t. rewrite Hs. destruct h; try contradiction; reflexivity.
Qed.
Lemma not_in_stack scs act st n : at_state scs act st -> ~ In (SPartial n) act -> existsb (site_eq (SPartial n)) (r_stack st) = false.
Proof.
  intros (_ & _ & Ea) Ha. apply not_true_is_false. rewrite existsb_exists. intros (y & Hy & Ey). rewrite Ea in Hy. destruct y; cbn in Ey; try discriminate Ey. apply streq_eq in Ey. subst. exact (Ha Hy).
Qed.
(** what is found under the name of a partial *)
Definition found_tpl (ppl : list (str * tpl)) (n : str) (t : tpl) (d : list item) : Prop :=
  Forall2 (node_is Loose pe (tp_src t)) (children (tp_node t)) d /\ Forall (regular w) d /\ calm_end d /\ (quiet_docs w -> existsb loud d = false)
  /\ (assoc n ppl = Some t \/ (assoc n ppl = None /\ exists te, assoc n (rg_templates (w_reg w)) = Some te /\ te_tpl te = t)).
Lemma source_found pb ppl n d : pb_is pb ppl -> partial_source w pb n d -> exists t, found_tpl ppl n t d.
Proof.
  intros Hp [(-> & ->)|(Hor & Hd)].
  - destruct Hp as (src & b & -> & Hb & Hr & Hc & Hq). exists (mkTpl src (NBlock b)). split; [exact Hb|]. split; [exact Hr|]. split; [exact Hc|]. split; [exact Hq|]. left. reflexivity.
  - destruct (fit_docs w Hf n d Hd) as (Dok & Dreg & Dlast & te & o & s & Tte & Tw & Tc). destruct (compiled o d s te Dok Tw Tc) as (ns & Ete & Hns).
    exists (te_tpl te). rewrite Ete. split; [exact Hns|]. split; [exact Dreg|]. split; [exact Dlast|]. split; [intros Hq; exact (Hq n d Hd)|]. right. split; [|exists te; auto].
    destruct pb as [body|]; [|cbn in Hp; rewrite Hp; reflexivity]. destruct Hor as [Hn|Hn]; [|discriminate Hn]. destruct Hp as (src & b & -> & _). cbn [assoc].
    destruct (streq n partial_block) eqn:E; [|reflexivity]. apply streq_eq in E. contradiction (Hn E).
Qed.
(** the state after the template of a partial has been found *)
Definition enter (n : str) (content : option tpl) (st : rst) : rst :=
  let st := up_stack (SPartial n :: r_stack st) st in
  match content with Some t => up_partials (assoc_set partial_block t (r_partials st)) st | None => st end.
Definition find_partial (n : str) (st : rst) : M tpl :=
  match assoc n (r_partials st) with
  | Some t => ret t
  | None => match assoc n (rg_templates (en_reg en)) with
            | Some te => upd (fun st => up_names (te_file te :: r_names st) st) ;; ret (te_tpl te)
            | None => fail (EPartialNotFound n)
            end
  end.
Definition render_found (k : nat) (src : str) (c : call) (t : tpl) : M unit :=
  let* h := hash (tie k) en src c in
  let* sc := (match c_args c with
              | [] => ret (mkScope (Some (JObj (fst h))) [])
              | _ => let* a := arguments (tie k) en src 0 (c_args c) in
                     match fst a with x :: _ => ret (mkScope (Some x) (fst h)) | [] => ret (mkScope (Some (JObj (fst h))) []) end
              end) in
  upd (fun st => up_scopes (sc :: r_scopes st) st) ;;
  let* st := get in
  iter_nodes (tp_src t) (fun n tr _ _ => k_node (tie k) en (tp_src t) n tr) None (r_hint st) (children (tp_node t)) ;;
  upd (fun st => up_scopes (tl (r_scopes st)) st) ;;
  upd (fun st => up_names (tl (r_names st)) st) ;;
  upd pop_stack.
(** the name of the partial a call names *)
Definition named (scs : list scope) (act : list site) (src : str) (c : call) (n : str) : Prop :=
  exists N, forall k st, N <= k -> at_state scs act st -> get_partial_name (tie k) en src c st = ROk n st.
Lemma path_named scs act src c p h t n : path_is src p h t -> c_target c = TPath p -> partial_name h t n -> named scs act src c n.
Proof. intros Hp C2 Hn. exists 0. intros k st _ _. exact (partial_text_name src p h t n k c Hp C2 Hn st). Qed.
Lemma dyn_named scs act src p c0 c xs hs v n : dyn_is Loose pe src p c0 c xs hs -> call_value w scs act c v ->
  shown (pl_fstr (w_plat w)) (match v with Some v => v | None => JNull end) n -> named scs act src c0 n.
Proof.
  intros Hc Hv Hx. destruct (dyn_shape _ _ _ _ _ _ Hc) as (sub & _ & Esub & Hsub & HA & HH).
  destruct (values_run w en Ep Er Ed Hf scs act) as (_ & _ & _ & V). destruct (V _ _ Hv _ _ _ _ Hsub) as (N & HN). exists (S N). intros k st Hk Hs. destruct k as [|k]; [lia|].
  unfold get_partial_name. rewrite Esub. assert (E : k_stmt (tie (S k)) en src sub st = ROk v st).
  { cbn [tie k_stmt]. unfold stmt_. replace (c_partial sub) with false by (inversion Hsub; reflexivity). apply HN; [lia|exact Hs]. }
  rewrite (bind_ok _ _ _ _ _ E), Ep, (shown_stringify _ _ _ Hx). reflexivity.
Qed.
Lemma partial_step k src c content scs act st n : get_partial_name (tie k) en src c st = ROk n st -> at_state scs act st -> ~ In (SPartial n) act ->
  render_partial (tie k) en src c content st = (let* t := find_partial n (enter n content st) in render_found k src c t) (enter n content st).
Proof.
  intros Hn Hs Ha. unfold render_partial. rewrite (bind_ok _ _ _ _ _ Hn), bind_get, (not_in_stack _ _ _ _ Hs Ha), bind_upd.
  destruct content as [u|]; [rewrite bind_upd|rewrite bind_ret]; rewrite bind_get; reflexivity.
Qed.
Lemma enter_at n content scs act st : at_state scs act st -> at_state scs (SPartial n :: act) (enter n content st).
Proof. intros (H1 & H2 & H3). unfold at_state, enter. destruct content; cbn; rewrite H3; auto. Qed.
Lemma partial_runs' scs act pb pb' src c xs hs n d sc out content ppl ppl0 :
  Forall2 (param_is Loose pe src) (c_args c) xs -> Forall2 (fun kp kv => fst kp = fst kv /\ param_is Loose pe src (snd kp) (snd kv)) (c_params c) hs ->
  named scs act src c n -> ~ In (SPartial n) act -> partial_source w pb n d -> partial_args w scs act n xs hs sc ->
  items_good (sc :: scs) (SPartial n :: act) pb pb' false false d out -> pb_is pb ppl ->
  ppl = match content with Some u => assoc_set partial_block u ppl0 | None => ppl0 end ->
  exists N ppl', pb_is pb' ppl' /\ forall k st, N <= k -> at_state scs act st -> r_partials st = ppl0 -> end_after st = false -> hint_after st = false ->
  exists st', render_partial (tie k) en src c content st = ROk tt st' /\ went scs act ppl' st st' out /\ end_after st' = false /\ (quiet_docs w -> hint_after st' = false).
Proof.
  intros HA HH (N0 & Hnm) Ha Hsrc (vs & pairs & ps & Hxs & Hhs & Hm & Esc) Hg Hpb Eppl.
  destruct (source_found _ _ _ _ Hpb Hsrc) as (u & U1 & U2 & U3 & U4 & U5).
  destruct (values_run w en Ep Er Ed Hf scs (SPartial n :: act)) as (_ & VA & VH & _). destruct (VA _ _ Hxs _ _ HA) as (N1 & H1).
  destruct (hash_of_runs w en Ep Hf _ _ _ _ _ _ (VH _ _ Hhs _ _ HH) Hm) as (N2 & H2).
  destruct (Hg (tp_src u) (children (tp_node u)) false U1 U2 ltac:(discriminate) ppl Hpb) as (N3 & ppl' & Hppl' & H3).
  exists (N0 + N1 + N2 + N3), ppl'. split; [exact Hppl'|]. intros k st Hk Hs Hst Hend Hhint.
  set (st1 := enter n content st). pose proof (enter_at n content _ _ _ Hs) as A1. fold st1 in A1.
  assert (P1 : r_partials st1 = ppl) by (rewrite Eppl, <- Hst; unfold st1, enter; destruct content; reflexivity).
  assert (O1 : r_out st1 = r_out st) by (unfold st1, enter; destruct content; reflexivity).
  assert (I1 : end_after st1 = false) by (rewrite <- Hend; unfold st1, enter; destruct content; reflexivity).
  assert (J1 : r_hint st1 = r_hint st) by (unfold st1, enter; destruct content; reflexivity).
  assert (F : exists st2, find_partial n st1 st1 = ROk u st2 /\ at_state scs (SPartial n :: act) st2 /\ r_partials st2 = ppl /\ r_out st2 = r_out st /\ end_after st2 = false /\ r_hint st2 = r_hint st).
  { unfold find_partial. rewrite P1. destruct U5 as [E|(E & te & Ete & Eu)]; rewrite E.
    - exists st1. split; [reflexivity|]. auto 10.
    - rewrite Er, Ete, <- Eu. eexists. split; [reflexivity|]. split; [exact A1|]. auto 10. }
  destruct F as (st2 & E2 & A2 & P2 & O2 & I2 & J2).
  destruct (H2 k st2 ltac:(lia) A2) as (mh & Eh). destruct (H1 k st2 0 ltac:(lia) A2) as (ma & Ea).
  set (st3 := up_scopes (sc :: r_scopes st2) st2). pose proof (at_scope _ _ sc _ A2) as A3. fold st3 in A3.
  destruct (H3 k st3 None (r_hint st3) ltac:(lia) A3 P2 ltac:(congruence)) as (st4 & E4 & M4 & F4 & G4).
  { intros _. change (end_after st3) with (end_after st2). rewrite I2. change (r_hint st3) with (r_hint st2). rewrite J2. change (opt_after (r_hint st)) with (hint_after st). rewrite Hhint. reflexivity. }
  assert (Sc4 : r_scopes st4 = sc :: scs) by apply M4. assert (St4 : r_stack st4 = SPartial n :: act) by apply M4.
  set (st5 := pop_stack (up_names (tl (r_names (up_scopes (tl (r_scopes st4)) st4))) (up_scopes (tl (r_scopes st4)) st4))).
  exists st5. split; [|split; [|split]].
  - rewrite (partial_step k src c content scs act st n (Hnm k st ltac:(lia) Hs) Hs Ha). fold st1. rewrite (bind_ok _ _ _ _ _ E2). unfold render_found. rewrite (bind_ok _ _ _ _ _ Eh). cbn [fst].
    assert (ES : (match c_args c with [] => ret (mkScope (Some (JObj ps)) []) | _ => let* a := arguments (tie k) en src 0 (c_args c) in match fst a with x :: _ => ret (mkScope (Some x) ps) | [] => ret (mkScope (Some (JObj ps)) []) end end) st2 = ROk sc st2).
    { destruct (c_args c) as [|a0 al] eqn:Eca.
      - inversion HA; subst. inversion Hxs; subst. reflexivity.
      - rewrite (bind_ok _ _ _ _ _ Ea). cbn [fst]. rewrite Esc. unfold partial_scope. destruct vs; reflexivity. }
    rewrite (bind_ok _ _ _ _ _ ES), bind_upd, bind_get. fold st3. unfold bind at 1. rewrite plain_step, E4. reflexivity.
  - destruct M4 as ((L4 & _ & _) & Pt4 & O4). unfold went, at_state, st5, pop_stack. cbn. rewrite Sc4, St4. cbn [tl]. split; [auto|]. split; [exact Pt4|]. rewrite O4. cbn. rewrite O2. reflexivity.
  - change (end_after st5) with (end_after st4). rewrite F4. change (end_after st3) with (end_after st2). rewrite I2. clear -U3. destruct d as [|i d _] using rev_ind; [reflexivity|]. rewrite last_end_app. destruct i; try reflexivity. cbn [ends]. eapply U3. reflexivity.
  - intros Hq. change (hint_after st5) with (hint_after st4). apply G4.
    + split; [exact (U4 Hq)|]. right. exact Hq.
    + unfold hint_after in *. change (r_hint st3) with (r_hint st2). rewrite J2. exact Hhint.
Qed.
Lemma partial_runs scs act pb pb' src pt cd c h t xs hs n d sc out content ppl ppl0 :
  call_is Loose pe src pt cd c (Call h t xs hs) -> partial_name h t n -> ~ In (SPartial n) act -> partial_source w pb n d -> partial_args w scs act n xs hs sc ->
  items_good (sc :: scs) (SPartial n :: act) pb pb' false false d out -> pb_is pb ppl ->
  ppl = match content with Some u => assoc_set partial_block u ppl0 | None => ppl0 end ->
  exists N ppl', pb_is pb' ppl' /\ forall k st, N <= k -> at_state scs act st -> r_partials st = ppl0 -> end_after st = false -> hint_after st = false ->
  exists st', render_partial (tie k) en src c content st = ROk tt st' /\ went scs act ppl' st st' out /\ end_after st' = false /\ (quiet_docs w -> hint_after st' = false).
Proof.
  intros Hc Hnm. destruct (call_shape _ _ _ _ _ _ _ _ _ Hc) as (p & C1 & C2 & Hp & HA & HH). apply partial_runs'; [exact HA|exact HH|exact (path_named _ _ _ _ _ _ _ _ Hp C2 Hnm)].
Qed.
Lemma partial_good scs act pb pb' s e triple m h t xs hs n d sc out :
  partial_name h t n -> ~ In (SPartial n) act -> partial_source w pb n d -> partial_args w scs act n xs hs sc ->
  items_good (sc :: scs) (SPartial n :: act) pb pb' false false d out ->
  item_good scs act pb pb' s e (ICall triple m true (Call h t xs hs)) out.
Proof.
  intros Hnm Ha Hsrc Hargs Hg src nd Hn Hr ppl Hppl. inversion Hn as [|c tr0 m0 p0 x0 u0 Hc Hesc Ht Hstr| | | | | | | ]; subst. inversion Hr as [| |t1 m1 c1 Rm| | | | | | | | | ]; subst.
  destruct (partial_runs _ _ _ _ _ _ _ _ _ _ _ _ _ _ _ _ None ppl ppl Hc Hnm Ha Hsrc Hargs Hg Hppl eq_refl) as (N & ppl' & Hppl' & HN). exists (S N), ppl'. split; [exact Hppl'|].
  intros k st tr Hk Hs Hpb Es Ee. destruct k as [|k]; [lia|]. pose proof (trim_of _ _ _ _ _ Hn) as Tn. rewrite (node_prep _ _ _ _ _ _ _ Tn).
  cbn [before open_after] in *. destruct (prep_facts tr (mkHint (tl_before m) (tl_after m)) st scs act Hs) as (Q1 & Q2 & Q3 & Q4 & Q5 & Q6). set (st0 := prep tr (mkHint (tl_before m) (tl_after m)) st) in *.
  destruct (HN k st0 ltac:(lia) Q1 ltac:(congruence)) as (st' & E & (M1 & M2 & M3) & F1 & F2); [unfold end_after; rewrite Q6; reflexivity|unfold hint_after; rewrite Q5; exact Rm|].
  exists st'. split; [|split; [split; [exact M1|]; rewrite M3, Q3; auto|]; split; [exact F1|]].
  - cbn [node_body tie k_stmt]. unfold stmt_. replace (c_partial c) with true by (inversion Hc; reflexivity).
    assert (E5 : (render_partial (tie k) en src c None ;; ret None) st0 = ROk (@None json) st') by (rewrite (bind_ok _ _ _ _ _ E); reflexivity).
    rewrite (bind_ok _ _ _ _ _ E5). reflexivity.
  - intros [_ [Hq|Hq]]; [discriminate Hq|exact (F2 Hq)].
Qed.
Lemma dyn_partial_good scs act pb pb' s e triple m c v xs hs n d sc out :
  call_value w scs act c v -> shown (pl_fstr (w_plat w)) (match v with Some v => v | None => JNull end) n -> ~ In (SPartial n) act -> partial_source w pb n d -> partial_args w scs act n xs hs sc ->
  items_good (sc :: scs) (SPartial n :: act) pb pb' false false d out ->
  item_good scs act pb pb' s e (IDyn triple m true c xs hs) out.
Proof.
  intros Hv Hx Ha Hsrc Hargs Hg src nd Hn Hr ppl Hppl. inversion Hn as [| |c0 tr0 m0 p0 x0 xs0 hs0 u0 Hc Hesc Ht Hstr| | | | | | ]; subst. inversion Hr as [| | | |t1 m1 c1 xs1 hs1 Rm| | | | | | | ]; subst.
  destruct (dyn_shape _ _ _ _ _ _ Hc) as (sub & _ & Esub & Hsub & HA & HH).
  pose proof (dyn_named _ _ _ _ _ _ _ _ _ _ Hc Hv Hx) as Hnm.
  destruct (partial_runs' _ _ _ _ _ _ _ _ _ _ _ _ None ppl ppl HA HH Hnm Ha Hsrc Hargs Hg Hppl eq_refl) as (N & ppl' & Hppl' & HN). exists (S N), ppl'. split; [exact Hppl'|].
  intros k st tr Hk Hs Hpb Es Ee. destruct k as [|k]; [lia|]. pose proof (trim_of _ _ _ _ _ Hn) as Tn. rewrite (node_prep _ _ _ _ _ _ _ Tn).
  cbn [before open_after] in *. destruct (prep_facts tr (mkHint (tl_before m) (tl_after m)) st scs act Hs) as (Q1 & Q2 & Q3 & Q4 & Q5 & Q6). set (st0 := prep tr (mkHint (tl_before m) (tl_after m)) st) in *.
  destruct (HN k st0 ltac:(lia) Q1 ltac:(congruence)) as (st' & E & (M1 & M2 & M3) & F1 & F2); [unfold end_after; rewrite Q6; reflexivity|unfold hint_after; rewrite Q5; exact Rm|].
  exists st'. split; [|split; [split; [exact M1|]; rewrite M3, Q3; auto|]; split; [exact F1|]].
  - cbn [node_body tie k_stmt]. unfold stmt_. replace (c_partial c0) with true by (inversion Hc; reflexivity).
    assert (E5 : (render_partial (tie k) en src c0 None ;; ret None) st0 = ROk (@None json) st') by (rewrite (bind_ok _ _ _ _ _ E); reflexivity).
    rewrite (bind_ok _ _ _ _ _ E5). reflexivity.
  - intros [_ [Hq|Hq]]; [discriminate Hq|exact (F2 Hq)].
Qed.
Lemma name_is n : partial_name (HdName n) [] n.
Proof. split; [unfold path_shown; cbn; rewrite app_nil_r; reflexivity|]. left. split; [reflexivity|]. split; [unfold path_text; cbn; rewrite app_nil_r; reflexivity|exact I]. Qed.
Lemma partial_block_good scs act pb pb' s e n xs hs m body bs m' d sc out :
  ~ In (SPartial n) act -> partial_source w (Some body) n d -> partial_args w scs act n xs hs sc ->
  items_good (sc :: scs) (SPartial n :: act) (Some body) pb' false false d out ->
  item_good scs act pb pb' s e (IBlock true (Call (HdName n) [] xs hs) m body bs m') out.
Proof.
  intros Ha Hsrc Hargs Hg src nd Hn Hr ppl Hppl. inversion Hn as [| | | | | | | |b p0 x0 m0 body0 bs0 m0' u0 B1 B2 B3 B4 B5 B6 B7]; subst. inversion Hr as [| | | | | | | | | | |c1 m1 b1 bs1 m1' R1 R2 R3 R4 R5 R6]; subst.
  set (u := mkTpl src (NBlock b)).
  assert (Hpb : pb_is (Some body) (assoc_set partial_block u ppl)).
  { exists src, b. split; [|auto]. destruct pb as [body0|]; [destruct Hppl as (s0 & b0 & -> & _); reflexivity|]. cbn in Hppl. rewrite Hppl. reflexivity. }
  destruct (partial_runs _ _ _ _ _ _ _ _ _ _ _ _ _ _ _ _ (Some u) (assoc_set partial_block u ppl) ppl B1 (name_is n) Ha Hsrc Hargs Hg Hpb eq_refl) as (N & ppl' & Hppl' & HN). exists N, ppl'. split; [exact Hppl'|].
  intros k st tr Hk Hs Hst Es Ee. pose proof (trim_of _ _ _ _ _ Hn) as Tn. rewrite (node_prep _ _ _ _ _ _ _ Tn).
  cbn [before open_after] in *. destruct (prep_facts tr (mkHint (tl_before m) (tl_after m)) st scs act Hs) as (Q1 & Q2 & Q3 & Q4 & Q5 & Q6). set (st0 := prep tr (mkHint (tl_before m) (tl_after m)) st) in *.
  destruct (HN k st0 ltac:(lia) Q1 ltac:(congruence)) as (st' & E & (M1 & M2 & M3) & F1 & F2); [unfold end_after; rewrite Q6; reflexivity|unfold hint_after; rewrite Q5; exact R1|].
  exists st'. split; [|split; [split; [exact M1|]; rewrite M3, Q3; auto|]; split; [exact F1|]].
  - cbn [node_body]. unfold block_. replace (c_partial (b_call b)) with true by (inversion B1; reflexivity). exact E.
  - intros [_ [Hq|Hq]]; [discriminate Hq|exact (F2 Hq)].
Qed.

(** ** Block helpers of one's own *)
Lemma solid_strip x s e : solid x -> stripped s e x x.
Proof.
  intros (H1 & H2). exists [], []. rewrite app_nil_r. split; [reflexivity|]. split; [intros c []|]. split; [intros c []|]. split; [destruct s; [exact H1|reflexivity]|destruct e; [exact H2|reflexivity]].
Qed.
Lemma went_in scs cur act ppl st st1 st' out out' : went cur act (r_partials st1) st st1 out -> went scs act ppl st1 st' out' -> went scs act ppl st st' (out ++ out').
Proof. intros (_ & _ & H2) (H3 & H4 & H5). split; [exact H3|]. split; [exact H4|]. rewrite H5, H2, app_assoc. reflexivity. Qed.
Definition orderly (m : tildes) (body : list item) (bs : list branch) (l : list hstep) : Prop :=
  renderings l <= 1 \/ tl_after m = true \/ (quiet_body w body /\ Forall (fun b => quiet_body w (br_body b)) bs).
Definition steps_good (scs : list scope) (act : list site) (pb pb' : option (list item)) (m : tildes) (body : list item) (bs : list branch) (m' : tildes) (cur : list scope) (l : list hstep) (out : str) : Prop :=
  forall src b c, block_is src b c m body bs m' -> regular w (IBlock false c m body bs m') -> orderly m body bs l ->
  forall v ppl, pb_is pb ppl -> exists N ppl', pb_is pb' ppl' /\ forall k st, N <= k -> at_state cur act st -> r_partials st = ppl -> end_after st = false ->
    (renderings l = 0 \/ (hint_after st = true -> tl_after m = true)) ->
  exists st', run (tie k) en (in_steps (mkTpl src (NBlock b)) l v) st = ROk v st' /\ went scs act ppl' st st' out /\ end_after st' = false
    /\ (quiet w (IBlock false c m body bs m') -> hint_after st = false -> hint_after st' = false).
Lemma orderly_skip m body bs x l : orderly m body bs (x :: l) -> renderings (x :: l) = renderings l -> orderly m body bs l.
Proof. unfold orderly. intros H E. rewrite <- E. exact H. Qed.
Lemma orderly_more m body bs x l : orderly m body bs (x :: l) -> renderings (x :: l) = S (renderings l) -> orderly m body bs l.
Proof. unfold orderly. intros [H|H] E; [left; lia|right; exact H]. Qed.
(** the state after a rendering *)
Lemma orderly_next m body bs x l (q : list item) h h' : orderly m body bs (x :: l) -> renderings (x :: l) = S (renderings l) -> (q = body \/ exists b, In b bs /\ q = br_body b) ->
  (renderings (x :: l) = 0 \/ (h = true -> tl_after m = true)) -> (quiet_body w q -> h = false -> h' = false) -> renderings l = 0 \/ (h' = true -> tl_after m = true).
Proof.
  intros Ho E Hq Hh Hn. unfold orderly in Ho. rewrite E in *. destruct Hh as [Hh|Hh]; [discriminate Hh|]. destruct Ho as [Ho|[Ho|(Q1 & Q2)]]; [left; lia|right; auto|].
  right. destruct (tl_after m); [reflexivity|]. assert (h = false) as F by (destruct h; [discriminate (Hh eq_refl)|reflexivity]). intros T. rewrite Hn in T; [exact T| |exact F].
  destruct Hq as [->|(b & Hb & ->)]; [exact Q1|]. rewrite Forall_forall in Q2. exact (Q2 _ Hb).
Qed.
Lemma good_end scs act pb m body bs m' : steps_good scs act pb pb m body bs m' scs [] [].
Proof.
  intros src b c _ _ _ v ppl Hppl. exists 0, ppl. split; [exact Hppl|]. intros k st _ Hs Hpb He _. exists st. split; [reflexivity|]. split; [apply went_nil; assumption|]. auto.
Qed.
Lemma good_say scs act pb pb' m body bs m' cur x esc l o : solid x -> steps_good scs act pb pb' m body bs m' cur l o ->
  steps_good scs act pb pb' m body bs m' cur (Say x esc :: l) ((if esc then written (rg_escape (w_reg w)) x else x) ++ o).
Proof.
  intros Hx H src b c Hb Hr Ho v ppl Hppl. destruct (H src b c Hb Hr (orderly_skip _ _ _ _ _ Ho eq_refl) v ppl Hppl) as (N & ppl' & Hppl' & HN). exists N, ppl'. split; [exact Hppl'|]. intros k st Hk Hs Hpb He Hh.
  destruct (r_trim st) as [ts te] eqn:Et. destruct (write_runs x esc ts te cur act st x Hs Et (solid_strip _ _ _ Hx)) as (n & st1 & E & M & R1 & R2).
  pose proof (moved_went _ _ _ _ _ _ M Hpb) as M1. destruct (HN k st1 Hk) as (st' & E' & M' & F1 & F2); [apply M1|apply M1|unfold end_after in *; rewrite R2; exact He|unfold hint_after in *; rewrite R1; exact Hh|].
  exists st'. split; [|split; [|split; [exact F1|]]].
  - cbn [in_steps run]. rewrite try_ret, (bind_ok _ _ _ _ _ E). exact E'.
  - eapply went_in; [|exact M']. destruct M1 as (X1 & X2 & X3). split; [exact X1|]. auto.
  - unfold hint_after in *. rewrite R1 in F2. exact F2.
Qed.
Lemma good_put scs act pb pb' m body bs m' cur x l o : steps_good scs act pb pb' m body bs m' cur l o ->
  steps_good scs act pb pb' m body bs m' cur (Put x :: l) (x ++ o).
Proof.
  intros H src b c Hb Hr Ho v ppl Hppl. destruct (H src b c Hb Hr (orderly_skip _ _ _ _ _ Ho eq_refl) v ppl Hppl) as (N & ppl' & Hppl' & HN). exists N, ppl'. split; [exact Hppl'|]. intros k st Hk Hs Hpb He Hh.
  destruct (Hw (r_out st) x) as (n & E). set (st1 := up_out (r_out st ++ [x]) st).
  destruct (HN k st1 Hk) as (st' & E' & M' & F1 & F2); [exact Hs|exact Hpb|exact He|exact Hh|].
  exists st'. split; [|split; [|split; [exact F1|exact F2]]].
  - cbn [in_steps run]. rewrite try_ret. unfold bind at 1. unfold emit. rewrite E. exact E'.
  - eapply went_in; [|exact M']. split; [exact Hs|]. split; [reflexivity|]. cbn. rewrite concat_app. cbn. now rewrite app_nil_r.
Qed.
Lemma good_show scs act pb pb1 pb' m body bs m' cur l o o' : items_good cur act pb pb1 (tl_after m) (tl_before (next_tag bs m')) body o -> steps_good scs act pb1 pb' m body bs m' cur l o' ->
  steps_good scs act pb pb' m body bs m' cur (Show :: l) (o ++ o').
Proof.
  intros Hg H src b c Hb Hr Ho v ppl Hppl. pose proof Hb as (B1 & B2 & B3 & B4 & B5 & B6).
  destruct (body_runs _ _ _ _ _ _ _ _ _ _ Hg (main_node _ _ _ _ _ _ _ B3 B5 B6 Hr) ppl Hppl) as (N1 & pp1 & Hpp1 & G1).
  destruct (H src b c Hb Hr (orderly_more _ _ _ _ _ Ho eq_refl) v pp1 Hpp1) as (N & ppl' & Hppl' & HN). exists (N1 + N), ppl'. split; [exact Hppl'|]. intros k st Hk Hs Hpb He Hh.
  destruct (G1 k st ltac:(lia) Hs Hpb He) as (st1 & E1 & M1 & F1 & Q1); [destruct Hh as [Hh|Hh]; [discriminate Hh|exact Hh]|].
  destruct (HN k st1 ltac:(lia)) as (st' & E' & M' & F1' & F2); [apply M1|apply M1|exact F1|eapply orderly_next; [exact Ho|reflexivity|left; reflexivity|exact Hh|exact Q1]|].
  exists st'. split; [|split; [|split; [exact F1'|]]].
  - cbn [in_steps run]. rewrite try_ret, (bind_ok _ _ _ _ _ E1). exact E'.
  - eapply went_in; [|exact M']. destruct M1 as (X1 & X2 & X3). split; [exact X1|]. auto.
  - intros Hq Hh0. apply F2; [exact Hq|]. destruct (quiet_block _ _ _ _ _ _ Hq) as (_ & Q2 & _). exact (Q1 Q2 Hh0).
Qed.
Lemma good_else scs act pb pb1 pb' m body bs m' cur r l o o' : else_branch w cur act bs r -> else_good cur act pb pb1 m' r o -> steps_good scs act pb1 pb' m body bs m' cur l o' ->
  steps_good scs act pb pb' m body bs m' cur (Otherwise :: l) (o ++ o').
Proof.
  intros He0 Hg H src b c Hb Hr Ho v ppl Hppl. pose proof Hb as (B1 & B2 & B3 & B4 & B5 & B6). destruct (inverse_found _ _ _ _ _ _ _ B4 He0) as (u & Fo & N1 & H1).
  assert (E0 : forall k st, N1 <= k -> at_state cur act st -> run (tie k) en (in_steps (mkTpl src (NBlock b)) (Otherwise :: l) v) st
     = match u with Some n => (template_ (tie k) en (mkTpl src n) ;; run (tie k) en (in_steps (mkTpl src (NBlock b)) l v)) st | None => run (tie k) en (in_steps (mkTpl src (NBlock b)) l v) st end).
  { intros k st Hk Hs. cbn [in_steps run]. rewrite try_ret. unfold inverse. cbn [tp_node tp_src].
    assert (E : (let* n := inverse_go (tie k) en src None (b_conds b) in ret (match n with Some n => Some (mkTpl src n) | None => None end)) st = ROk (match u with Some n => Some (mkTpl src n) | None => None end) st) by (rewrite (bind_ok _ _ _ _ _ (H1 k st Hk Hs)); reflexivity).
    rewrite (bind_ok _ _ _ _ _ E). destruct u as [n|]; [cbn [run]; apply try_ret | reflexivity]. }
  destruct r as [[x post]|], u as [n|]; try contradiction.
  - destruct Fo as (cs & Hcs). assert (exists pre, bs = pre ++ x :: post) as (pre & Ebs) by (inversion He0; subst; eauto).
    pose proof (branch_node _ _ _ _ _ _ _ _ _ _ _ Hr Ebs Hcs) as Hn. destruct (Hg src n Hn ppl Hppl) as (N2 & pp1 & Hpp1 & G1).
    destruct (H src b c Hb Hr (orderly_more _ _ _ _ _ Ho eq_refl) v pp1 Hpp1) as (N & ppl' & Hppl' & HN). exists (N1 + N2 + N), ppl'. split; [exact Hppl'|]. intros k st Hk Hs Hpb He Hh. rewrite E0 by (try lia; exact Hs).
    assert (In x bs) as Hin by (rewrite Ebs; apply in_or_app; right; left; reflexivity).
    destruct (G1 k st ltac:(lia) Hs Hpb He) as (st1 & E1 & M1 & F1 & Q1).
    { destruct Hh as [Hh|Hh]; [discriminate Hh|]. intros T. specialize (Hh T). inversion Hr as [| | | | | | | | | |c0 m0 body0 bs0 m0' R1 R2 R3 R4 R5 R6 R7|]; subst. destruct (R3 Hh) as [_ X]. rewrite Forall_forall in X. exact (X _ Hin). }
    destruct (HN k st1 ltac:(lia)) as (st' & E' & M' & F1' & F2); [apply M1|apply M1|exact F1|eapply orderly_next; [exact Ho|reflexivity|right; exists x; split; [exact Hin|reflexivity]|exact Hh|exact Q1]|].
    exists st'. split; [|split; [|split; [exact F1'|]]].
    + rewrite (bind_ok _ _ _ _ _ E1). exact E'.
    + eapply went_in; [|exact M']. destruct M1 as (X1 & X2 & X3). split; [exact X1|]. auto.
    + intros Hq Hh0. apply F2; [exact Hq|]. destruct (quiet_block _ _ _ _ _ _ Hq) as (_ & _ & Q3). rewrite Forall_forall in Q3. exact (Q1 (Q3 _ Hin) Hh0).
  - cbn [else_good] in Hg. destruct Hg as [-> ->]. destruct (H src b c Hb Hr (orderly_more _ _ _ _ _ Ho eq_refl) v ppl Hppl) as (N & ppl' & Hppl' & HN). exists (N1 + N), ppl'. split; [exact Hppl'|]. intros k st Hk Hs Hpb He Hh. rewrite E0 by (try lia; exact Hs).
    apply HN; [lia|exact Hs|exact Hpb|exact He|]. destruct Hh as [Hh|Hh]; [discriminate Hh|right; exact Hh].
Qed.
Lemma good_enter scs act pb pb' m body bs m' cur sc l o : steps_good scs act pb pb' m body bs m' (sc :: cur) l o -> steps_good scs act pb pb' m body bs m' cur (Enter sc :: l) o.
Proof.
  intros H src b c Hb Hr Ho v ppl Hppl. destruct (H src b c Hb Hr (orderly_skip _ _ _ _ _ Ho eq_refl) v ppl Hppl) as (N & ppl' & Hppl' & HN). exists N, ppl'. split; [exact Hppl'|]. intros k st Hk Hs Hpb He Hh.
  destruct (HN k (up_scopes (sc :: r_scopes st) st) Hk (at_scope _ _ _ _ Hs) Hpb He Hh) as (st' & E & M & F). exists st'. split; [|split; [exact M|exact F]]. cbn [in_steps run]. rewrite bind_upd. exact E.
Qed.
Lemma good_alter scs act pb pb' m body bs m' cur sc g l o : steps_good scs act pb pb' m body bs m' (g sc :: cur) l o -> steps_good scs act pb pb' m body bs m' (sc :: cur) (Alter g :: l) o.
Proof.
  intros H src b c Hb Hr Ho v ppl Hppl. destruct (H src b c Hb Hr (orderly_skip _ _ _ _ _ Ho eq_refl) v ppl Hppl) as (N & ppl' & Hppl' & HN). exists N, ppl'. split; [exact Hppl'|]. intros k st Hk Hs Hpb He Hh.
  destruct (HN k (up_scopes (g sc :: cur) st) Hk) as (st' & E & M & F); [destruct Hs as (X1 & X2 & X3); split; auto|exact Hpb|exact He|exact Hh|]. exists st'. split; [|split; [exact M|exact F]]. cbn [in_steps run]. rewrite bind_upd.
  assert (Es : r_scopes st = sc :: cur) by apply Hs. rewrite Es. exact E.
Qed.
Lemma good_leave scs act pb pb' m body bs m' cur sc l o : steps_good scs act pb pb' m body bs m' cur l o -> steps_good scs act pb pb' m body bs m' (sc :: cur) (Leave :: l) o.
Proof.
  intros H src b c Hb Hr Ho v ppl Hppl. destruct (H src b c Hb Hr (orderly_skip _ _ _ _ _ Ho eq_refl) v ppl Hppl) as (N & ppl' & Hppl' & HN). exists N, ppl'. split; [exact Hppl'|]. intros k st Hk Hs Hpb He Hh.
  destruct (HN k (up_scopes cur st) Hk) as (st' & E & M & F); [destruct Hs as (X1 & X2 & X3); split; auto|exact Hpb|exact He|exact Hh|]. exists st'. split; [|split; [exact M|exact F]]. cbn [in_steps run].
  assert (Es : r_scopes st = sc :: cur) by apply Hs. rewrite bind_get, Es, bind_upd. exact E.
Qed.
Lemma by_invoke scs act src b p n xs hs m body bs m' name f prop : block_by w scs n name f prop -> block_is src b (Call (HdName n) [] xs hs) m body bs m' ->
  path_is src p (HdName n) [] -> c_partial (b_call b) = false -> c_target (b_call b) = TPath p ->
  exists tg, target_is w tg f /\ forall k st, at_state scs act st -> block_ (tie k) en src b st = (invoke (tie k) en src name tg (b_call b) (Some (mkTpl src (NBlock b))) None prop ;; ret tt) st.
Proof.
  intros Hby (B1 & B2 & _) Hpp C1 C2. destruct (name_simple src p n Hpp) as (P2 & P3). destruct Hby as [f Hh _|f u Hh Hu Hbm].
  - exists (ByName n). split; [left; eauto|]. intros k st Hs. unfold block_. rewrite C1, C2, P2, B2, bind_ret, P3. cbn [need]. rewrite bind_ret, bind_get, (a_helper_at w en Er scs act _ n f Hs Hh). reflexivity.
  - exists (ByRef f). split; [right; reflexivity|]. intros k st Hs. unfold block_. rewrite C1, C2, P2, B2, bind_ret, P3. cbn [need]. rewrite bind_ret, bind_get, (no_helper_at w en Er scs act _ n Hs Hh).
    unfold block_missing. rewrite C2. cbn [tp_src]. rewrite (bind_ok _ _ _ _ _ (look_some w en Ed src p (HdName n) [] scs act st u Hpp Hs Hu)), Er, Hbm, P3. cbn [need]. rewrite bind_ret. reflexivity.
Qed.
Lemma own_good scs act pb pb' s e n xs hs m body bs m' name f prop vs pairs ps l v out :
  block_by w scs n name f prop -> count_site (SBlock name) act < 32 ->
  args_value w scs (SBlock name :: act) xs vs -> hash_value w scs (SBlock name :: act) hs pairs -> map_of ps pairs ->
  performs w scs f name vs ps prop l v -> orderly m body bs l ->
  steps_good scs (SBlock name :: act) pb pb' m body bs m' scs l out ->
  item_good scs act pb pb' s e (IBlock false (Call (HdName n) [] xs hs) m body bs m') out.
Proof.
  intros Hby Hc Hv Hhv Hm Hp Ho H. apply block_good. intros src b Hb Hr ppl Hppl. destruct (H src b _ Hb Hr Ho v ppl Hppl) as (N1 & ppl' & Hppl' & H1). pose proof Hb as Hb2. destruct Hb2 as (B1 & B2 & _).
  destruct (call_shape _ _ _ _ _ _ _ _ _ B1) as (p & C1 & C2 & Hpp & Ha & Hhs). destruct (name_simple src p n Hpp) as (P2 & P3).
  destruct (values_run w en Ep Er Ed Hf scs (SBlock name :: act)) as (_ & VA & VH & _).
  destruct (by_invoke scs act src b p n xs hs m body bs m' name f prop Hby Hb Hpp C1 C2) as (tg & Htg & Hblk).
  destruct (invoke_runs w en Ep Er Hf scs act src name tg f (b_call b) (Some (mkTpl src (NBlock b))) None prop vs pairs ps (SBlock name) eq_refl Htg Hc (VA _ _ Hv _ _ Ha) (VH _ _ Hhv _ _ Hhs) Hm) as (N2 & H2).
  exists (N1 + N2), ppl'. split; [exact Hppl'|]. intros k st Hk Hs Hpb Hend Hhint. destruct (H2 k st ltac:(lia) Hs) as (ctx & Hctx & Ei).
  destruct (H1 k (up_stack (SBlock name :: r_stack st) st) ltac:(lia)) as (st' & Er' & M & E1 & E2); [apply at_push, Hs | exact Hpb | exact Hend | right; change (hint_after (up_stack (SBlock name :: r_stack st) st)) with (hint_after st); congruence |].
  exists (pop_stack st'). split; [|split; [exact (went_pop _ _ _ _ _ _ _ Hs M)|]; split; [exact E1 |]].
  - rewrite (Hblk k st Hs). unfold bind at 1. rewrite Ei.
    rewrite <- (Hp ctx (mkTpl src (NBlock b))) in Er'; [|apply Hctx..|]; [rewrite (bind_ok _ _ _ _ _ Er'); reflexivity|].
    split; [exact Ep|]. split; [exact Ed|]. split; [rewrite Er; reflexivity|apply Hs].
  - intros Hq. apply E2; [exact Hq|]. change (hint_after (up_stack (SBlock name :: r_stack st) st)) with (hint_after st). rewrite Hhint. apply (quiet_block _ _ _ _ _ _ Hq).
Qed.

Scheme item_out_mut := Minimality for item_out Sort Prop
  with items_out_mut := Minimality for items_out Sort Prop
  with rounds_out_mut := Minimality for rounds_out Sort Prop
  with else_out_mut := Minimality for else_out Sort Prop
  with steps_out_mut := Minimality for steps_out Sort Prop.
Combined Scheme out_mut from item_out_mut, items_out_mut, rounds_out_mut, else_out_mut, steps_out_mut.
Theorem out_runs :
  (forall scs act pb pb' s e i out, item_out w scs act pb pb' s e i out -> item_good scs act pb pb' s e i out)
  /\ (forall scs act pb pb' s e l out, items_out w scs act pb pb' s e l out -> items_good scs act pb pb' s e l out)
  /\ (forall its scs act pb pb' s e l out, rounds_out w its scs act pb pb' s e l out -> rounds_good its scs act pb pb' s e l out)
  /\ (forall scs act pb pb' m' r out, else_out w scs act pb pb' m' r out -> else_good scs act pb pb' m' r out)
  /\ (forall scs act pb pb' m body bs m' cur l out, steps_out w scs act pb pb' m body bs m' cur l out -> steps_good scs act pb pb' m body bs m' cur l out).
Proof.
  apply (out_mut w item_good items_good rounds_good else_good steps_good); intros.
  - apply text_good; assumption.
  - eapply value_good; eassumption.
  - apply missing_good; assumption.
  - rewrite <- (app_nil_r out). eapply print_good; try eassumption. reflexivity.
  - eapply print_good; try eassumption. exists x, y. auto.
  - eapply dyn_value_good; eassumption.
  - apply dyn_missing_good; assumption.
  - rewrite <- (app_nil_r out). eapply dyn_print_good; try eassumption. reflexivity.
  - eapply dyn_print_good; try eassumption. exists x, y. auto.
  - apply comment_good.
  - apply raw_comment_good.
  - apply escaped_good; assumption.
  - apply link_good; assumption.
  - eapply link_handler_good; eassumption.
  - eapply raw_good; eassumption.
  - eapply raw_helper_good; eassumption.
  - eapply partial_good; eassumption.
  - eapply dyn_partial_good; eassumption.
  - eapply partial_block_good; eassumption.
  - eapply if_good; eassumption.
  - eapply if_else_good; eassumption.
  - eapply unless_good; eassumption.
  - eapply unless_else_good; eassumption.
  - eapply with_good; eassumption.
  - apply with_null_good; assumption.
  - eapply each_good; eassumption.
  - eapply plain_block_good; eassumption.
  - apply missing_block_good; assumption.
  - eapply block_helper_good; eassumption.
  - eapply block_handler_good; eassumption.
  - eapply block_missing_handler_good; eassumption.
  - eapply own_good; eassumption.
  - apply items_nil.
  - eapply items_cons; eassumption.
  - apply rounds_none.
  - eapply rounds_next; eassumption.
  - split; reflexivity.
  - cbn [else_good]. intros src n Hn. eapply body_runs; eassumption.
  - apply good_end.
  - apply good_say; assumption.
  - apply good_put; assumption.
  - eapply good_show; eassumption.
  - eapply good_else; eassumption.
  - apply good_enter; assumption.
  - apply good_alter; assumption.
  - apply good_leave; assumption.
Qed.
End Items.
