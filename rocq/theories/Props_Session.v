(** * Props_Session: what the operations of the render context do for a helper (C75). *)
From Coq Require Import Lia String.
From Verif Require Import Str Json Ast Parser Messages Render Helpers Registry Tests StrFacts LookupFacts Spec_Values Spec_Helpers Spec_Calls CycleFacts Props_Calls Spec_Source SynPath Props_Source Spec_Sem SemFacts SemItems Props_Sem
  Spec_Fail Props_Fail Spec_Total TotalFacts Props_Total SynEval Props_Eval Spec_Session.
Open Scope nat_scope. Open Scope list_scope.

Definition ends (r : ending) (st : rst) : rres (option json) :=
  match r with Gives v => ROk v st | Stops (Fails err) => RErr err st | Stops Panics => RPanic PanUnwrap end.
Lemma write_nothing en x esc st s e : r_trim st = mkTrim s e -> stripped s e x [] -> write_str en x esc st = ROk 0 st.
Proof. intros Ht Hy. apply stripped_trim in Hy. unfold write_str. rewrite bind_get, Ht. cbn [ts_start ts_end]. unfold trimmed in Hy. rewrite Hy. reflexivity. Qed.
Lemma write_some en x esc st s e y : r_trim st = mkTrim s e -> stripped s e x y -> y <> [] -> write_str en x esc st = emit en (sent en esc y) st.
Proof. intros Ht Hy Hn. apply stripped_trim in Hy. unfold write_str. rewrite bind_get, Ht. cbn [ts_start ts_end]. unfold trimmed in Hy. rewrite Hy. destruct y; [contradiction|reflexivity]. Qed.
(** a session of the specification is what happens, for every writer, every state of the renderer and every program it covers: the helper ends as
    the session says, with the scopes, local helpers and output it says, and nothing else has changed *)
Theorem C75_session : forall en cur s e v p v' r, session en cur s e v p v' r ->
  forall K st, is_at en cur s e v st -> exists st', run K en p st = ends r st' /\ is_at en cur s e v' st' /\ same_rest st st'.
Proof.
  intros en cur s e v p v' r H.
  induction H; intros K st (A1 & A2 & A3 & A4 & A5); cbn [vw_scopes vw_locals vw_out] in *.
  - exists st. split; [reflexivity|]. split; [repeat split; assumption|repeat split].
  - exists st. split; [reflexivity|]. split; [repeat split; assumption|repeat split].
  - exists st. split; [reflexivity|]. split; [repeat split; assumption|repeat split].
  - destruct (IHsession K st) as (st' & R & X & Y); [repeat split; assumption|]. exists st'. split; [|split; assumption].
    cbn [run]. unfold mcatch. rewrite (write_nothing en x esc st s e A5 H). exact R.
  - destruct (IHsession K (up_out (r_out st ++ [sent en esc y]) st)) as (st' & R & X & Y); [repeat split; try assumption; cbn; rewrite A3; reflexivity|]. exists st'. split; [|split; assumption].
    cbn [run]. unfold mcatch. rewrite (write_some en x esc st s e y A5 H H0). unfold emit. rewrite A3, H1. rewrite A3 in R. exact R.
  - destruct (IHsession K (up_out (r_out st ++ [sent en esc y]) st)) as (st' & R & X & Y); [repeat split; try assumption; cbn; rewrite A3; reflexivity|]. exists st'. split; [|split; assumption].
    cbn [run]. unfold mcatch. rewrite (write_some en x esc st s e y A5 H H0). unfold emit. rewrite A3, H1. rewrite A3 in R. exact R.
  - destruct (IHsession K (up_out (r_out st ++ [x]) st)) as (st' & R & X & Y); [repeat split; try assumption; cbn; rewrite A3; reflexivity|]. exists st'. split; [|split; assumption].
    cbn [run]. unfold mcatch, emit. rewrite A3, H. rewrite A3 in R. exact R.
  - destruct (IHsession K (up_out (r_out st ++ [x]) st)) as (st' & R & X & Y); [repeat split; try assumption; cbn; rewrite A3; reflexivity|]. exists st'. split; [|split; assumption].
    cbn [run]. unfold mcatch, emit. rewrite A3, H. rewrite A3 in R. exact R.
  - destruct (IHsession K (up_scopes (sc :: r_scopes st) st)) as (st' & R & X & Y); [repeat split; try assumption; cbn; rewrite A1; reflexivity|]. exists st'. split; [exact R|split; assumption].
  - destruct (IHsession K (up_scopes scs st)) as (st' & R & X & Y); [repeat split; assumption|]. exists st'. split; [|split; assumption].
    cbn [run]. rewrite bind_get, A1. exact R.
  - destruct (IHsession K st) as (st' & R & X & Y); [repeat split; assumption|]. exists st'. split; [|split; assumption].
    cbn [run]. rewrite bind_get, A1. exact R.
  - destruct (IHsession K (up_scopes (g sc :: scs) st)) as (st' & R & X & Y); [repeat split; assumption|]. exists st'. split; [|split; assumption].
    cbn [run]. rewrite bind_upd, A1. exact R.
  - destruct (IHsession K st) as (st' & R & X & Y); [repeat split; assumption|]. exists st'. split; [|split; assumption].
    cbn [run]. rewrite bind_upd, A1. exact R.
  - destruct (IHsession K st) as (st' & R & X & Y); [repeat split; assumption|]. exists st'. split; [|split; assumption].
    rewrite <- A1 in H1. rewrite (proj1 (C72_evaluate K en h t k st H H0) x H1). exact R.
  - destruct (IHsession K st) as (st' & R & X & Y); [repeat split; assumption|]. exists st'. split; [|split; assumption].
    rewrite <- A1 in H1. rewrite (proj2 (C72_evaluate K en h t k st H H0) H1). exact R.
  - destruct (IHsession K (up_local (assoc_set n h (r_local st)) st)) as (st' & R & X & Y); [|exists st'; split; [exact R|split; assumption]].
    repeat split; try assumption. cbn [r_local up_local vw_locals]. intros m. destruct (list_eq_dec N.eq_dec m n) as [->|Hm]; [rewrite assoc_set_eq; auto|rewrite assoc_set_neq by assumption; rewrite H0 by assumption; apply A2].
  - destruct (IHsession K (up_local (assoc_del n (r_local st)) st)) as (st' & R & X & Y); [|exists st'; split; [exact R|split; assumption]].
    repeat split; try assumption. cbn [r_local up_local vw_locals]. intros m. destruct (list_eq_dec N.eq_dec m n) as [->|Hm]; [rewrite assoc_del_eq; auto|rewrite assoc_del_neq by assumption; rewrite H0 by assumption; apply A2].
  - destruct (IHsession K st) as (st' & R & X & Y); [repeat split; assumption|]. exists st'. split; [|split; assumption]. cbn [run]. rewrite H. exact R.
  - destruct (IHsession K st) as (st' & R & X & Y); [repeat split; assumption|]. exists st'. split; [|split; assumption]. cbn [run]. rewrite H. exact R.
  - destruct (IHsession K st) as (st' & R & X & Y); [repeat split; assumption|]. exists st'. split; [exact R|split; assumption].
  - destruct (IHsession K st) as (st' & R & X & Y); [repeat split; assumption|]. exists st'. split; [|split; assumption]. cbn [run]. rewrite bind_get, A4. exact R.
  - destruct (IHsession K st) as (st' & R & X & Y); [repeat split; assumption|]. exists st'. split; [exact R|split; assumption].
  - destruct (IHsession K st) as (st' & R & X & Y); [repeat split; assumption|]. exists st'. split; [exact R|split; assumption].
Qed.
(** A helper that amounts to a plain program acts like it: so the semantics of C55, C64 and C65 says what a template that calls it writes. *)
Lemma amounts_run w base scs p q : amounts w base scs p q -> forall K en st, sees w base en st -> run K en p (up_scopes scs st) = run K en q st.
Proof.
  assert (S : forall st, up_scopes (r_scopes st) st = st) by (intros []; reflexivity).
  induction 1; intros K en st Hs; pose proof Hs as (S1 & S2 & S3 & S4).
  - rewrite <- S4, S. reflexivity.
  - rewrite <- S4, S. reflexivity.
  - reflexivity.
  - rewrite <- S4, S. cbn [run]. unfold mcatch. destruct (write_str en x esc st) as [n st1|err st1| |] eqn:E; try reflexivity; [|rewrite H0; reflexivity].
    rewrite H. cbn [htry]. assert (Hs' : sees w base en st1).
    { unfold sees. repeat (split; [assumption|]). unfold write_str in E. rewrite bind_get in E. destruct (if ts_end _ then _ else _); [now injection E as _ <-|]. unfold emit in E. destruct (en_write en _ _); [|discriminate]. injection E as _ <-. exact S4. }
    specialize (IHamounts K en st1 Hs'). destruct Hs' as (_ & _ & _ & S4'). rewrite <- S4', S in IHamounts. exact IHamounts.
  - rewrite <- (IHamounts K en st Hs). reflexivity.
  - rewrite <- (IHamounts K en st Hs). reflexivity.
  - rewrite <- (IHamounts K en st Hs). reflexivity.
  - rewrite <- (IHamounts K en st Hs). apply (C72_evaluate K en h t k (up_scopes scs st) H H0). cbn. rewrite S2. exact H1.
  - rewrite <- (IHamounts K en st Hs). apply (C72_evaluate K en h t k (up_scopes scs st) H H0). cbn. rewrite S2. exact H1.
  - rewrite <- (IHamounts K en st Hs). cbn [run]. rewrite S2. reflexivity.
  - rewrite <- (IHamounts K en st Hs). cbn [run]. rewrite S3. reflexivity.
  - rewrite <- (IHamounts K en st Hs). reflexivity.
Qed.
Theorem C75_amounts : forall w scs f n vs ps text prop blk q,
  (forall ctx t, hc_name ctx = n -> hc_args ctx = vs -> hc_params ctx = ps -> hc_text ctx = text -> hc_property ctx = prop -> (t <> None <-> blk = true) ->
     amounts w scs scs (f ctx t) q) ->
  acts w scs f n vs ps text prop blk q.
Proof.
  intros w scs f n vs ps text prop blk q H ctx t E1 E2 E3 E4 E5 Ht K en st Hs.
  rewrite <- (amounts_run w scs scs (f ctx t) q (H ctx t E1 E2 E3 E4 E5 Ht) K en st Hs). destruct Hs as (_ & _ & _ & <-). destruct st; reflexivity.
Qed.
(** such a helper in a statement of a template: what it writes, one text after the other, and then the value it gives *)
Definition all_written (esc : str -> str) (ws : list (str * bool)) : str :=
  flat_map (fun xe : str * bool => if snd xe then Spec_Sem.written esc (fst xe) else fst xe) ws.
Lemma all_out w ws v : helper_out w false false (writes ws v) (all_written (rg_escape (w_reg w)) ws).
Proof. induction ws as [|[x esc] ws IH]; [apply ho_value|]. apply (ho_writes w false false x esc x ws v); [apply stripped_none|exact IH]. Qed.
Theorem C75_statement : forall w d1 d2 s1 si s2 triple m n f xs hs vs pairs ps ws r shows pb pb' o1 o2,
  let i := ICall triple m false (Call (HdName n) [] xs hs) in
  setting w d1 i d2 s1 s2 -> item_writes Loose i si ->
  items_out w [] [] None pb false (tl_before m) d1 o1 -> items_out w [] [] pb pb' (tl_after m) false d2 o2 ->
  last_after false d1 = false -> next_before false d2 = false ->
  assoc n (rg_helpers (w_reg w)) = Some f -> args_value w [] [SHelper n] xs vs -> hash_value w [] [SHelper n] hs pairs -> map_of ps pairs ->
  (forall ctx, hc_name ctx = n -> hc_args ctx = vs -> hc_params ctx = ps -> amounts w [] [] (f ctx None) (writes ws r)) ->
  match r with None => shows = [] | Some v => exists x, shown (pl_fstr (w_plat w)) v x /\ shows = if triple then x else Spec_Sem.written (rg_escape (w_reg w)) x end ->
  renders (w_plat w) (w_reg w) (w_data w) (s1 ++ si ++ s2) (o1 ++ (all_written (rg_escape (w_reg w)) ws ++ shows) ++ o2).
Proof.
  intros w d1 d2 s1 si s2 triple m n f xs hs vs pairs ps ws r shows pb pb' o1 o2 i Hs Hsi H1 H2 E1 E2 Hf Hx Hh Hp Ha Hr.
  apply (among w pb pb pb' d1 i d2); try assumption. rewrite E1, E2.
  assert (C : called w [] (HdName n) [] n f) by (apply called_helper; [split; [reflexivity|split; [symmetry; apply name_text|exact I]]|exact Hf]).
  assert (H : helper_call w [] [] false n f xs hs None None (writes ws r)).
  { split; [cbn; lia|]. exists vs, pairs, ps. repeat (split; [assumption|]). apply C75_amounts. intros ctx t X1 X2 X3 _ _ Ht.
    destruct t as [t|]; [discriminate (proj1 Ht ltac:(discriminate))|]. auto. }
  destruct r as [v|].
  - destruct Hr as (x & Hx' & ->). eapply io_print_value; [exact C|exact H|apply all_out|exact Hx'|apply stripped_none].
  - subst shows. rewrite app_nil_r. eapply io_print; [exact C|exact H|apply all_out].
Qed.
(** and its templates have an outcome: C65 covers it *)
Theorem C75_simple : forall w blk f,
  (forall scs ctx t, (t <> None <-> blk = true) -> exists q, amounts w scs scs (f ctx t) q
     /\ ((exists ws v, q = writes ws v) \/ (exists s, q = halt s))
     /\ forall ctx' t', hc_name ctx' = hc_name ctx -> hc_args ctx' = hc_args ctx -> hc_params ctx' = hc_params ctx -> hc_text ctx' = hc_text ctx ->
          hc_property ctx' = hc_property ctx -> (t' <> None <-> blk = true) -> amounts w scs scs (f ctx' t') q) ->
  simple w blk f.
Proof.
  intros w blk f H scs n vs ps text prop.
  assert (exists t : option tpl, (t <> None <-> blk = true)) as (t & Ht).
  { destruct blk; [exists (Some (mkTpl [] (NDoc [])))|exists None]; split; try discriminate; try reflexivity; intros X; contradiction. }
  destruct (H scs (bare n vs ps text prop) t Ht) as (q & _ & Hq & Ha). exists q. split; [|exact Hq]. apply C75_amounts. intros ctx t' X1 X2 X3 X4 X5 Ht'. apply Ha; assumption.
Qed.

(** ** Non-vacuity *)
Definition hail : helper := fun _ _ =>
  HPushScope (set_local (lit "mark") (JStr (lit "!")) scope_new) (HEval (lit "@mark") (fun m => HPopScope (fun sc => HEval (lit "name") (fun n => HEscape (lit "&") (fun a =>
  match m, n, sc with
  | HOk (Some (JStr m)), HOk (Some (JStr n)), Some _ => HWrite n true (htry (fun _ => HWrite (m ++ a) false (htry (fun _ => HRet (Some (JBool true))))))
  | _, _, _ => HPanic
  end))))).
Definition hail_reg : registry := helper_insert (lit "hail") hail reg0.
Definition hail_data : json := JObj [(lit "name", JStr (lit "<Al>"))].
Definition hail_world : world := mkWorld pl0 hail_reg hail_data [].

Lemma hail_does ctx : amounts hail_world [] [] (hail ctx None) (writes [(lit "<Al>", true); (lit "!&amp;", false)] (Some (JBool true))).
Proof.
  unfold hail. apply am_push. apply (am_eval hail_world [] _ (HdLocal (lit "mark")) [] _ (JStr (lit "!"))); [left; cbn [head_ok]; ok_side|ok_side|see|].
  apply am_pop. apply (am_eval hail_world [] _ (HdName (lit "name")) [] _ (JStr (lit "<Al>"))); [left; cbn [head_ok]; ok_side|ok_side|see|].
  apply am_escape. cbn [writes]. apply (am_write hail_world [] (lit "<Al>") true _ (HWrite (lit "!&amp;") false (htry (fun _ => HRet (Some (JBool true)))))); [intros n; reflexivity|reflexivity|]. apply (am_write hail_world [] (lit "!&amp;") false _ (HRet (Some (JBool true)))); [intros n; reflexivity|reflexivity|]. apply am_value.
Qed.
Lemma hail_setting : setting hail_world [IText (lit "<p>")] (ICall false nt false (Call (HdName (lit "hail")) [] [] [])) [IText (lit "</p>")] (lit "<p>") (lit "</p>").
Proof.
  apply (setting_canon hail_world [IText (lit "<p>")]); [|unfold doc_ok; cbn [app]; ok_items|repeat constructor].
  split; [intros src c; apply Permutation_refl|]. intros n d H. discriminate H.
Qed.
Definition look : hprog := HGetTemplate (lit "p") (fun t => HData (fun d => HNames (fun a b => HPopScope (fun sc =>
  match t, sc with None, Some sc => HOut (a ++ b) (fun _ => HRet (sc_value sc)) | _, _ => HPanic end)))).
Lemma C75_nonvacuous :
  renders pl0 hail_reg hail_data (lit "<p>{{hail}}</p>") (lit "<p>&lt;Al&gt;!&amp;true</p>")
  /\ once hail_reg (lit "<p>{{hail}}</p>") hail_data = AOk (lit "<p>&lt;Al&gt;!&amp;true</p>")
  /\ session (mkEnv pl0 reg0 (lit "a") hail_data string_writer) (lit "b") false true (mkView [mkScope (Some (JBool true)) []] (fun _ => None) []) look
       (mkView [] (fun _ => None) [lit "ab"]) (Gives (Some (JBool true))).
Proof.
  split; [|split; [vm_compute; reflexivity|]].
  - refine (C75_statement hail_world [IText (lit "<p>")] [IText (lit "</p>")] (lit "<p>") (lit "{{hail}}") (lit "</p>") false nt (lit "hail") hail [] [] [] [] [] _ (Some (JBool true)) (lit "true") None None (lit "<p>") (lit "</p>")
      hail_setting _ _ _ eq_refl eq_refl eq_refl (as_nil _ _ _) (hv_nil _ _ _) _ (fun ctx _ _ _ => hail_does ctx) _).
    + apply canon_item; [ok_item|reflexivity].
    + apply out_one. constructor. apply stripped_none.
    + apply out_one. constructor. apply stripped_none.
    + split; constructor.
    + exists (lit "true"). split; [constructor|reflexivity].
  - unfold look. apply se_no_template; [reflexivity|]. apply se_data, se_names, se_pop. eapply se_out; [reflexivity|]. apply se_gives.
Qed.
