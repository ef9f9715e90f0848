(** * Props_Blocks: if, unless, else chains, each and with (C28-C32). *)
From Coq Require Import Lia String.
From Verif Require Import Str Json Ast ErrInfo Parser Render Helpers Registry Tests Spec_Values Spec_Helpers Spec_Render Spec_Blocks StrFacts
  ValueFacts UnaryFacts StateFacts CycleFacts BuiltinFacts HashFacts Props_Values Props_Render.
Open Scope nat_scope. Open Scope list_scope.

(** ** selecting an else branch *)
Lemma try_ret {A} (m : M A) K en (f : A -> hprog) st : mcatch m (fun r => run K en (htry f r)) st = (let* a := m in run K en (f a)) st.
Proof. unfold mcatch, bind. destruct (m st); reflexivity. Qed.
Lemma not_holds_none : ~ holds None.
Proof. intros (w & H & _). discriminate H. Qed.
Lemma holds_spec v : holds (Some v) <-> is_truthy v = true.
Proof.
  pose proof (truthy_falsy v) as T. unfold holds. split.
  - intros (w & H & Hw). injection H as <-. destruct (is_truthy v); [reflexivity|]. contradiction Hw. apply T. reflexivity.
  - intros H. exists v. split; [reflexivity|]. intros Hf. apply T in Hf. congruence.
Qed.
(** as [last_plain], given the last plain one before *)
Definition last_plain_from (alt : option node) (ns : list node) (r : option node) : Prop :=
  (exists n, last_plain ns (Some n) /\ r = Some n) \/ (r = alt /\ forall m, In m ns -> ~ plain m).
Lemma last_plain_nil alt r : last_plain_from alt [] r <-> r = alt.
Proof.
  split.
  - intros [(n & H & _)|[H _]]; [|exact H]. destruct H as [(pre & m & post & H & _)|[H _]]; [destruct pre; discriminate H | discriminate H].
  - intros ->. right. split; [reflexivity | intros m []].
Qed.
Lemma last_plain_skip alt n ns r : ~ plain n -> last_plain_from alt ns r <-> last_plain_from alt (n :: ns) r.
Proof.
  intros Hn. unfold last_plain_from. split.
  - intros [(m & H & ->)|[-> H]]; [left; exists m | right]; (split; [|auto]).
    + destruct H as [(pre & m' & post & -> & Hm & Hp & E)|[E _]]; [|discriminate]. left. exists (n :: pre), m', post. auto.
    + reflexivity.
    + intros x [<-|Hx]; auto.
  - intros [(m & H & ->)|[-> H]].
    + destruct H as [(pre & m' & post & E & Hm & Hp & Em)|[E _]]; [|discriminate]. injection Em as <-. destruct pre as [|y pre]; injection E as <- ->; [contradiction|].
      left. exists m. split; [|reflexivity]. left. exists pre, m, post. auto.
    + right. split; [reflexivity|]. intros x Hx. apply H. right. exact Hx.
Qed.
Lemma last_plain_take alt n ns r : plain n -> last_plain_from (Some n) ns r <-> last_plain_from alt (n :: ns) r.
Proof.
  intros Hn. unfold last_plain_from. split.
  - intros [(m & H & ->)|[-> H]].
    + left. exists m. split; [|reflexivity]. destruct H as [(pre & m' & post & -> & Hm & Hp & E)|[E _]]; [|discriminate]. left. exists (n :: pre), m', post. auto.
    + left. exists n. split; [|reflexivity]. left. exists [], n, ns. auto.
  - intros [(m & H & ->)|[-> H]]; [|exfalso; apply (H n); [left; reflexivity | exact Hn]].
    destruct H as [(pre & m' & post & E & Hm & Hp & Em)|[E _]]; [|discriminate]. injection Em as <-. destruct pre as [|y pre]; injection E as <- ->.
    + right. auto.
    + left. exists m. split; [|reflexivity]. left. exists pre, m, post. auto.
Qed.
Lemma last_plain_start ns r : last_plain_from None ns r <-> last_plain ns r.
Proof.
  unfold last_plain_from. split.
  - intros [(n & H & ->)|[-> H]]; [exact H | right; auto].
  - intros [H|[-> H]]; [|right; auto]. left. destruct H as (pre & n & post & -> & Hn & Hp & ->). exists n. split; [left; exists pre, n, post; auto | reflexivity].
Qed.
Section Sel.
Variables (K : knot) (en : env) (src : str).
Notation ev := (k_call K en src).
Definition selects_from (alt : option node) (ns : list node) (st : rst) (r : option node) (s : rst) : Prop :=
  (exists pre n c post mid v, ns = pre ++ n :: post /\ none_holds ev pre st mid /\ conditional n c /\ ev c mid = ROk v s /\ holds v /\ r = Some n)
  \/ (none_holds ev ns st s /\ last_plain_from alt ns r).
Lemma not_cond n : (forall c, ~ conditional n c) \/ exists b, n = NBlock b /\ conditional n (b_call b) /\ call_is_empty (b_call b) = false.
Proof.
  destruct n; try (left; intros c' (b' & H & _); discriminate H). destruct (call_is_empty (b_call b)) eqn:E.
  - left. intros c (b' & H & <- & Hc). injection H as <-. congruence.
  - right. exists b. split; [reflexivity|]. split; [exists b; auto | exact E].
Qed.
Lemma cond_plain n c : conditional n c -> ~ plain n.
Proof. intros (b & -> & <- & H) (b' & E & H'). injection E as <-. congruence. Qed.
Lemma cond_inj n c c' : conditional n c -> conditional n c' -> c = c'.
Proof. intros (b & -> & <- & H) (b' & E & <- & H'). injection E as <-. reflexivity. Qed.
Lemma nh_inv n ns st s : none_holds ev (n :: ns) st s ->
  ((forall c, ~ conditional n c) /\ none_holds ev ns st s) \/ (exists c v s1, conditional n c /\ ev c st = ROk v s1 /\ ~ holds v /\ none_holds ev ns s1 s).
Proof. intros H. inversion H; subst; [left; auto | right; eauto 10]. Qed.
(** one step of a selection *)
Lemma sel_skip alt alt' n ns st r s : (forall c, ~ conditional n c) -> (last_plain_from alt' ns r <-> last_plain_from alt (n :: ns) r) ->
  selects_from alt' ns st r s -> selects_from alt (n :: ns) st r s.
Proof.
  intros Hn Hl [(pre & m & c & post & mid & v & -> & H1 & H2 & H3 & H4 & H5)|[H1 H2]].
  - left. exists (n :: pre), m, c, post, mid, v. split; [reflexivity|]. split; [apply nh_skip; assumption|]. auto.
  - right. split; [apply nh_skip; assumption | apply Hl, H2].
Qed.
Lemma sel_no alt n c ns st v s1 r s : conditional n c -> ev c st = ROk v s1 -> ~ holds v -> selects_from alt ns s1 r s -> selects_from alt (n :: ns) st r s.
Proof.
  intros Hn He Hv [(pre & m & c' & post & mid & v' & -> & H1 & H2 & H3 & H4 & H5)|[H1 H2]].
  - left. exists (n :: pre), m, c', post, mid, v'. split; [reflexivity|]. split; [eapply nh_cond; eassumption|]. auto.
  - right. split; [eapply nh_cond; eassumption | apply last_plain_skip; [exact (cond_plain n c Hn) | exact H2]].
Qed.
Definition fails_from (ns : list node) (st : rst) (e : rerr) (s : rst) : Prop := select_fails ev ns st e s.
Lemma go_sound ns : forall alt st,
  match inverse_go K en src alt ns st with
  | ROk r s => selects_from alt ns st r s
  | RErr e s => fails_from ns st e s
  | _ => True
  end.
Proof.
  induction ns as [|n ns IH]; intros alt st.
  - cbn. right. split; [constructor | apply last_plain_nil; reflexivity].
  - destruct (not_cond n) as [Hn|(b & -> & Hc & Hb)].
    + assert (E : exists alt', (inverse_go K en src alt (n :: ns) = inverse_go K en src alt' ns) /\ forall r, last_plain_from alt' ns r <-> last_plain_from alt (n :: ns) r).
      { destruct n; try (exists alt; split; [reflexivity | intros r; apply last_plain_skip; intros (b' & H & _); discriminate H]).
        destruct (call_is_empty (b_call b)) eqn:Eb; [|contradiction (Hn (b_call b)); exists b; auto]. exists (Some (NBlock b)). split; [cbn [inverse_go]; rewrite Eb; reflexivity|].
        intros r. apply last_plain_take. exists b. auto. }
      destruct E as (alt' & -> & Hl). specialize (IH alt' st). destruct (inverse_go K en src alt' ns st) as [r s|e s|p|]; try exact I.
      * eapply sel_skip; eauto.
      * destruct IH as (pre & m & c & post & mid & -> & H1 & H2 & H3). exists (n :: pre), m, c, post, mid. split; [reflexivity|]. split; [apply nh_skip; assumption|]. auto.
    + cbn [inverse_go]. rewrite Hb. unfold bind. destruct (ev (b_call b) st) as [v s1|e s1|p|] eqn:Ev; try exact I.
      * destruct v as [v|].
        -- destruct (is_truthy v) eqn:Tv.
           ++ cbn. left. exists [], (NBlock b), (b_call b), ns, st, (Some v). split; [reflexivity|]. split; [constructor|]. split; [exact Hc|]. split; [exact Ev|]. split; [apply holds_spec, Tv | reflexivity].
           ++ assert (Nv : ~ holds (Some v)) by (rewrite holds_spec; congruence). specialize (IH alt s1). destruct (inverse_go K en src alt ns s1) as [r s|e s|p|]; try exact I.
              ** eapply sel_no; eauto.
              ** destruct IH as (pre & m & c & post & mid & -> & H1 & H2 & H3). exists (NBlock b :: pre), m, c, post, mid. split; [reflexivity|]. split; [eapply nh_cond; eassumption|]. auto.
        -- specialize (IH alt s1). destruct (inverse_go K en src alt ns s1) as [r s|e s|p|]; try exact I.
           ++ eapply sel_no; eauto using not_holds_none.
           ++ destruct IH as (pre & m & c & post & mid & -> & H1 & H2 & H3). exists (NBlock b :: pre), m, c, post, mid. split; [reflexivity|]. split; [eapply nh_cond; eauto using not_holds_none|]. auto.
      * exists [], (NBlock b), (b_call b), ns, st. split; [reflexivity|]. split; [constructor|]. auto.
Qed.
(** the outcome is determined *)
Inductive outcome := Chose (r : option node) (s : rst) | Broke (e : rerr) (s : rst).
Definition result (ns : list node) (st : rst) (o : outcome) : Prop :=
  match o with Chose r s => selects ev ns st r s | Broke e s => select_fails ev ns st e s end.
Lemma nh_det ns st s : none_holds ev ns st s -> forall s', none_holds ev ns st s' -> s = s'.
Proof.
  induction 1 as [st|n ns st s Hn H IH|n c ns st v s1 s Hc He Hv H IH]; intros s' H'.
  - inversion H'. reflexivity.
  - destruct (nh_inv _ _ _ _ H') as [[_ X]|(c & v & s1 & X & _)]; [auto | contradiction (Hn c)].
  - destruct (nh_inv _ _ _ _ H') as [[X _]|(c' & v' & s1' & X & E & _ & Y)]; [contradiction (X c)|]. rewrite (cond_inj _ _ _ X Hc), He in E. injection E as <- <-. auto.
Qed.
(** two first conditions that end the search are the same *)
Lemma nh_split pre n c post pre' n' c' post' st mid mid' :
  pre ++ n :: post = pre' ++ n' :: post' -> none_holds ev pre st mid -> none_holds ev pre' st mid' -> conditional n c -> conditional n' c' ->
  (forall v s, ev c mid = ROk v s -> holds v) -> (forall v s, ev c' mid' = ROk v s -> holds v) -> pre = pre' /\ n = n' /\ c = c' /\ mid = mid'.
Proof.
  intros E H. revert pre' E. induction H as [st|x xs st s Hx H IH|x cx xs st v s1 s Hcx He Hv H IH]; intros pre' E H' C C' D D'.
  - destruct pre' as [|y pre'].
    + injection E as -> ->. inversion H'; subst. repeat split; auto. exact (cond_inj _ _ _ C C').
    + injection E as -> E. destruct (nh_inv _ _ _ _ H') as [[X _]|(c2 & v2 & s2 & X & E2 & Nv & _)]; [contradiction (X c)|].
      rewrite (cond_inj _ _ _ X C) in E2. contradiction (Nv (D _ _ E2)).
  - destruct pre' as [|y pre'].
    + injection E as -> E. contradiction (Hx c').
    + injection E as -> E. destruct (nh_inv _ _ _ _ H') as [[_ X]|(c2 & v2 & s2 & X & _)]; [|contradiction (Hx c2)].
      destruct (IH _ E X C C' D D') as (-> & -> & -> & ->). auto.
  - destruct pre' as [|y pre'].
    + injection E as -> E. inversion H'; subst. rewrite (cond_inj _ _ _ C' Hcx) in D'. contradiction (Hv (D' _ _ He)).
    + injection E as -> E. destruct (nh_inv _ _ _ _ H') as [[X _]|(c2 & v2 & s2 & X & E2 & _ & Y)]; [contradiction (X cx)|].
      rewrite (cond_inj _ _ _ X Hcx), He in E2. injection E2 as <- <-. destruct (IH _ E Y C C' D D') as (-> & -> & -> & ->). auto.
Qed.
(** nothing ends the search and something does *)
Lemma nh_not pre n c post st s mid : none_holds ev (pre ++ n :: post) st s -> none_holds ev pre st mid -> conditional n c ->
  (forall v s, ev c mid = ROk v s -> holds v) -> (exists r, ev c mid = r) -> False.
Proof.
  intros H H1. revert H. induction H1 as [st|x xs st s1 Hx H1 IH|x cx xs st v s1 s2 Hcx He Hv H1 IH]; intros H C D _.
  - destruct (nh_inv _ _ _ _ H) as [[X _]|(c2 & v2 & s2 & X & E2 & Nv & _)]; [contradiction (X c)|]. rewrite (cond_inj _ _ _ X C) in E2. exact (Nv (D _ _ E2)).
  - destruct (nh_inv _ _ _ _ H) as [[_ X]|(c2 & v2 & s2 & X & _)]; [|contradiction (Hx c2)]. eapply IH; eauto.
  - destruct (nh_inv _ _ _ _ H) as [[X _]|(c2 & v2 & s3 & X & E2 & _ & Y)]; [contradiction (X cx)|]. rewrite (cond_inj _ _ _ X Hcx), He in E2. injection E2 as <- <-. eapply IH; eauto.
Qed.
Lemma last_plain_det ns r r' : last_plain ns r -> last_plain ns r' -> r = r'.
Proof.
  rewrite <- !last_plain_start. generalize (@None node). induction ns as [|n ns IH]; intros alt.
  - rewrite !last_plain_nil. congruence.
  - destruct n; try (rewrite <- !(last_plain_skip alt) by (intros (b' & E & _); discriminate E); apply IH).
    destruct (call_is_empty (b_call b)) eqn:Eb.
    + rewrite <- !(last_plain_take alt) by (exists b; auto). apply IH.
    + rewrite <- !(last_plain_skip alt) by (intros (b' & E & H); injection E as <-; congruence). apply IH.
Qed.
Lemma result_det ns st o o' : result ns st o -> result ns st o' -> o = o'.
Proof.
  assert (D1 : forall c mid v s, ev c mid = ROk v s -> holds v -> forall v' s', ev c mid = ROk v' s' -> holds v') by (intros; congruence).
  assert (D2 : forall c mid e s, ev c mid = RErr e s -> forall v' s', ev c mid = ROk v' s' -> holds v') by (intros; congruence).
  destruct o as [r s|e s], o' as [r' s'|e' s']; cbn [result]; unfold selects, select_fails.
  - intros [(pre & n & c & post & mid & v & -> & H1 & H2 & H3 & H4 & ->)|[H1 H2]] [(pre' & n' & c' & post' & mid' & v' & E & H1' & H2' & H3' & H4' & ->)|[H1' H2']].
    + destruct (nh_split _ _ _ _ _ _ _ _ _ _ _ E H1 H1' H2 H2' (D1 _ _ _ _ H3 H4) (D1 _ _ _ _ H3' H4')) as (-> & -> & -> & ->). congruence.
    + exfalso. exact (nh_not _ _ _ _ _ _ _ H1' H1 H2 (D1 _ _ _ _ H3 H4) (ex_intro _ _ eq_refl)).
    + exfalso. rewrite E in H1. exact (nh_not _ _ _ _ _ _ _ H1 H1' H2' (D1 _ _ _ _ H3' H4') (ex_intro _ _ eq_refl)).
    + rewrite (nh_det _ _ _ H1 _ H1'), (last_plain_det _ _ _ H2 H2'). reflexivity.
  - intros [(pre & n & c & post & mid & v & -> & H1 & H2 & H3 & H4 & ->)|[H1 H2]] (pre' & n' & c' & post' & mid' & E & H1' & H2' & H3').
    + destruct (nh_split _ _ _ _ _ _ _ _ _ _ _ E H1 H1' H2 H2' (D1 _ _ _ _ H3 H4) (D2 _ _ _ _ H3')) as (-> & -> & -> & ->). congruence.
    + exfalso. rewrite E in H1. exact (nh_not _ _ _ _ _ _ _ H1 H1' H2' (D2 _ _ _ _ H3') (ex_intro _ _ eq_refl)).
  - intros (pre' & n' & c' & post' & mid' & E & H1' & H2' & H3') [(pre & n & c & post & mid & v & -> & H1 & H2 & H3 & H4 & ->)|[H1 H2]].
    + destruct (nh_split _ _ _ _ _ _ _ _ _ _ _ E H1 H1' H2 H2' (D1 _ _ _ _ H3 H4) (D2 _ _ _ _ H3')) as (-> & -> & -> & ->). congruence.
    + exfalso. rewrite E in H1. exact (nh_not _ _ _ _ _ _ _ H1 H1' H2' (D2 _ _ _ _ H3') (ex_intro _ _ eq_refl)).
  - intros (pre & n & c & post & mid & -> & H1 & H2 & H3) (pre' & n' & c' & post' & mid' & E & H1' & H2' & H3').
    destruct (nh_split _ _ _ _ _ _ _ _ _ _ _ E H1 H1' H2 H2' (D2 _ _ _ _ H3) (D2 _ _ _ _ H3')) as (-> & -> & -> & ->). congruence.
Qed.
Lemma go_none pre st mid : none_holds ev pre st mid -> forall alt rest, exists alt', inverse_go K en src alt (pre ++ rest) st = inverse_go K en src alt' rest mid.
Proof.
  induction 1 as [st|n ns st s Hn H IH|n c ns st v s1 s Hc He Hv H IH]; intros alt rest.
  - exists alt. reflexivity.
  - destruct (not_cond n) as [_|(b & -> & Hc & _)]; [|contradiction (Hn _ Hc)].
    destruct n; try (destruct (IH alt rest) as (alt' & E); exists alt'; exact E).
    destruct (call_is_empty (b_call b)) eqn:Eb; [|contradiction (Hn (b_call b)); exists b; auto].
    destruct (IH (Some (NBlock b)) rest) as (alt' & E). exists alt'. cbn [app inverse_go]. rewrite Eb. exact E.
  - destruct Hc as (b & -> & <- & Hb). destruct (IH alt rest) as (alt' & E). exists alt'. cbn [app inverse_go]. rewrite Hb. unfold bind. rewrite He.
    destruct v as [v|]; [|exact E]. rewrite holds_spec in Hv. destruct (is_truthy v); [contradiction Hv; reflexivity | exact E].
Qed.
Lemma go_complete ns st o : result ns st o -> inverse_go K en src None ns st = match o with Chose r s => ROk r s | Broke e s => RErr e s end.
Proof.
  intros H. destruct o as [r s|e s]; cbn [result] in H.
  - destruct H as [(pre & n & c & post & mid & v & -> & H1 & (b & -> & <- & Hb) & H3 & H4 & ->)|[H1 H2]].
    + destruct (go_none _ _ _ H1 None (NBlock b :: post)) as (alt & ->). cbn [inverse_go]. rewrite Hb. unfold bind. rewrite H3.
      destruct v as [v|]; [|contradiction not_holds_none]. apply holds_spec in H4. rewrite H4. reflexivity.
    + destruct (go_none _ _ _ H1 None []) as (alt & E). rewrite app_nil_r in E. pose proof (go_sound ns None st) as G. rewrite E in *. cbn in G |- *.
      assert (X : Chose alt s = Chose r s); [|injection X as ->; reflexivity].
      apply (result_det ns st); cbn [result].
      * destruct G as [G|[G1 G2]]; [left; exact G | right; split; [exact G1 | apply last_plain_start, G2]].
      * right. split; assumption.
  - destruct H as (pre & n & c & post & mid & -> & H1 & (b & -> & <- & Hb) & H3). destruct (go_none _ _ _ H1 None (NBlock b :: post)) as (alt & ->).
    cbn [inverse_go]. rewrite Hb. unfold bind. rewrite H3. reflexivity.
Qed.
End Sel.

(** ** C28: if and unless *)
Lemma run_else K en t st :
  let r := mcatch (inverse K en t) (fun r => run K en (htry (fun n => match n with Some n => HTemplate n (htry (fun _ => HRet None)) | None => HRet None end) r)) st in
  (forall n s, selects (k_call K en (tp_src t)) (branches t) st (Some n) s -> r = (template_ K en (mkTpl (tp_src t) n) ;; ret None) s)
  /\ (forall s, selects (k_call K en (tp_src t)) (branches t) st None s -> r = ROk None s)
  /\ (forall e s, select_fails (k_call K en (tp_src t)) (branches t) st e s -> r = RErr e s).
Proof.
  cbv zeta. rewrite try_ret. unfold inverse, branches. destruct (tp_node t).
  all: match goal with |- context [b_conds ?b] => idtac | _ => split; [|split];
    [ intros n s [(pre & m & c0 & post & mid & v & E & _)|[_ [(pre & m & post & E & _)|[E _]]]]; [destruct pre; discriminate E | destruct pre; discriminate E | discriminate E]
    | intros s [(pre & m & c0 & post & mid & v & E & _)|[H _]]; [destruct pre; discriminate E | inversion H; reflexivity]
    | intros e s (pre & m & c0 & post & mid & E & _); destruct pre; discriminate E] end.
  rewrite bind_assoc. split; [|split].
  - intros n s H. unfold bind at 1. rewrite (go_complete K en (tp_src t) _ _ (Chose (Some n) s) H). cbv beta iota. rewrite bind_ret. apply try_ret.
  - intros s H. unfold bind at 1. rewrite (go_complete K en (tp_src t) _ _ (Chose None s) H). reflexivity.
  - intros e s H. unfold bind at 1. rewrite (go_complete K en (tp_src t) _ _ (Broke e s) H). reflexivity.
Qed.
Theorem C28_if_unless : forall pl hi hu ctx v t,
  builtin pl (lit "if") hi -> builtin pl (lit "unless") hu -> hc_args ctx = [v] ->
  (~ falsy v -> runs_body hi ctx t /\ runs_else hu ctx t) /\ (falsy v -> runs_else hi ctx t /\ runs_body hu ctx t).
Proof.
  intros pl hi hu ctx v t Hi Hu Ha. injection Hi as <-. injection Hu as <-. rewrite <- truthy_falsy.
  assert (B : forall K en st, run K en (HTemplate t (htry (fun _ => HRet None))) st = (template_ K en t;; ret None) st) by (intros; apply try_ret).
  split; intros Hv; split.
  - intros K en st. unfold if_helper. args Ha. destruct (is_truthy v); [apply B | congruence].
  - intros K en st. unfold unless_helper. args Ha. destruct (is_truthy v); [|congruence]. apply run_else.
  - intros K en st. unfold if_helper. args Ha. rewrite Hv. apply run_else.
  - intros K en st. unfold unless_helper. args Ha. rewrite Hv. apply B.
Qed.

(** a block with an else chain, and a truthy and a falsy argument *)
Definition ctx1 (v : json) : hctx := demo_ctx (lit "if") [v] [].
Example C28_nonvacuous : ~ falsy (JArr []) /\ falsy (JStr []) /\ hc_args (ctx1 (JStr [])) = [JStr []].
Proof. rewrite <- !truthy_falsy. split; [|split]; vm_compute; congruence. Qed.

(** ** C29: else chains *)
Theorem C29_else_chain : forall pl h ctx v t K en st,
  builtin pl (lit "if") h -> hc_args ctx = [v] -> falsy v ->
  (exists n s, selects (k_call K en (tp_src t)) (branches t) st (Some n) s /\ run K en (h ctx (Some t)) st = (template_ K en (mkTpl (tp_src t) n) ;; ret None) s)
  \/ (exists s, selects (k_call K en (tp_src t)) (branches t) st None s /\ run K en (h ctx (Some t)) st = ROk None s)
  \/ (exists e s, select_fails (k_call K en (tp_src t)) (branches t) st e s /\ run K en (h ctx (Some t)) st = RErr e s)
  \/ (exists n c mid, In n (branches t) /\ conditional n c /\ ((exists p, k_call K en (tp_src t) c mid = RPanic p) \/ k_call K en (tp_src t) c mid = RFuel)).
Proof.
  intros pl h ctx v t K en st Hb Ha Hv.
  destruct (proj2 (C28_if_unless pl h unless_helper ctx v t Hb eq_refl Ha) Hv) as [Hr _]. destruct (Hr K en st) as (R1 & R2 & R3).
  pose proof (go_sound K en (tp_src t) (branches t) None st) as G. destruct (inverse_go K en (tp_src t) None (branches t) st) as [r s|e s|p|] eqn:E.
  - assert (S : selects (k_call K en (tp_src t)) (branches t) st r s) by (destruct G as [G|[G1 G2]]; [left; exact G | right; split; [exact G1 | apply last_plain_start, G2]]).
    destruct r as [n|]; [left; exists n, s; auto | right; left; exists s; auto].
  - right; right; left. exists e, s. auto.
  - right; right; right. clear -E. revert st E. generalize (@None node). induction (branches t) as [|n ns IH]; intros alt st E; [discriminate E|].
    assert (X : forall alt st, inverse_go K en (tp_src t) alt ns st = RPanic p -> exists n0 c mid, In n0 (n :: ns) /\ conditional n0 c /\ ((exists p, k_call K en (tp_src t) c mid = RPanic p) \/ k_call K en (tp_src t) c mid = RFuel)).
    { intros a' s' H. destruct (IH a' s' H) as (n0 & c & mid & H1 & H2 & H3). exists n0, c, mid. split; [right; exact H1 | auto]. }
    destruct n; try (exact (X _ _ E)). cbn [inverse_go] in E. destruct (call_is_empty (b_call b)) eqn:Eb; [exact (X _ _ E)|].
    unfold bind in E. destruct (k_call K en (tp_src t) (b_call b) st) as [[v|] s|e s|p'|] eqn:Ev; try discriminate E.
    + destruct (is_truthy v); [discriminate E | exact (X _ _ E)].
    + exact (X _ _ E).
    + exists (NBlock b), (b_call b), st. split; [left; reflexivity|]. split; [exists b; auto | left; eauto].
  - right; right; right. clear -E. revert st E. generalize (@None node). induction (branches t) as [|n ns IH]; intros alt st E; [discriminate E|].
    assert (X : forall alt st, inverse_go K en (tp_src t) alt ns st = RFuel -> exists n0 c mid, In n0 (n :: ns) /\ conditional n0 c /\ ((exists p, k_call K en (tp_src t) c mid = RPanic p) \/ k_call K en (tp_src t) c mid = RFuel)).
    { intros a' s' H. destruct (IH a' s' H) as (n0 & c & mid & H1 & H2 & H3). exists n0, c, mid. split; [right; exact H1 | auto]. }
    destruct n; try (exact (X _ _ E)). cbn [inverse_go] in E. destruct (call_is_empty (b_call b)) eqn:Eb; [exact (X _ _ E)|].
    unfold bind in E. destruct (k_call K en (tp_src t) (b_call b) st) as [[v|] s|e s|p'|] eqn:Ev; try discriminate E.
    + destruct (is_truthy v); [discriminate E | exact (X _ _ E)].
    + exact (X _ _ E).
    + exists (NBlock b), (b_call b), st. split; [left; reflexivity|]. split; [exists b; auto | right; exact Ev].
Qed.
Theorem C29_selection_unique : forall K en src ns st r s r' s',
  selects (k_call K en src) ns st r s -> selects (k_call K en src) ns st r' s' -> r = r' /\ s = s'.
Proof.
  intros K en src ns st r s r' s' H H'. pose proof (result_det K en src ns st (Chose r s) (Chose r' s') H H') as X. injection X as -> ->. auto.
Qed.
(** the condition of [{{else if v}}]: the helper called without a block *)
Theorem C29_if_condition : forall pl h ctx v, builtin pl (lit "if") h -> hc_args ctx = [v] ->
  exists r, returns h ctx None r /\ (holds r <-> ~ falsy v).
Proof.
  intros pl h ctx v Hb Ha. injection Hb as <-. exists (Some (JBool (is_truthy v))). split.
  - intros K en st. unfold if_helper. args Ha. reflexivity.
  - rewrite holds_spec, <- truthy_falsy. cbn. destruct (is_truthy v); split; congruence.
Qed.
(** [{{else unless v}}] is never selected *)
Theorem C29_else_unless_refuted : forall pl h ctx v, builtin pl (lit "unless") h -> hc_args ctx = [v] ->
  exists r, returns h ctx None r /\ ~ holds r.
Proof.
  intros pl h ctx v Hb Ha. injection Hb as <-. exists None. split; [|apply not_holds_none].
  intros K en st. unfold unless_helper. args Ha. reflexivity.
Qed.
Example C29_nonvacuous :
  [once reg0 (lit "{{#if false}}a{{else if x}}b{{else if y}}c{{else}}d{{/if}}") (JObj [(lit "x", JBool false); (lit "y", JBool true)]);
   once reg0 (lit "{{#if false}}a{{else if x}}b{{else if y}}c{{else}}d{{/if}}") (JObj []);
   once reg0 (lit "{{#if false}}a{{else unless false}}b{{/if}}") (JObj [])]
  = [AOk (lit "c"); AOk (lit "d"); AOk (lit "")].
Proof. vm_compute. reflexivity. Qed.

(** ** C30-C32: scopes around a block *)
(** the body once per scope, as a function *)
Fixpoint iterate (body : M unit) (scs : list scope) (st : rst) : rres unit :=
  match scs with
  | [] => ROk tt st
  | sc :: scs => match body (up_scopes (sc :: r_scopes st) st) with
                 | ROk _ s1 => iterate body scs (up_scopes (r_scopes st) s1)
                 | RErr e s => RErr e s
                 | RPanic p => RPanic p
                 | RFuel => RFuel
                 end
  end.
Lemma iterate_ok body scs : forall st s, iterate body scs st = ROk tt s <-> iterations body scs st s.
Proof.
  induction scs as [|sc scs IH]; intros st s; cbn [iterate].
  - split; [intros H; injection H as <-; constructor | intros H; inversion H; reflexivity].
  - destruct (body (up_scopes (sc :: r_scopes st) st)) as [[] s1|e s1|p|] eqn:E; split; intros H; try discriminate H.
    + econstructor; [exact E | apply IH, H].
    + inversion H; subst. apply IH. congruence.
    + inversion H; congruence.
    + inversion H; congruence.
    + inversion H; congruence.
Qed.
Lemma iterate_err body scs : forall st e s, iterate body scs st = RErr e s <-> iteration_fails body scs st e s.
Proof.
  induction scs as [|sc scs IH]; intros st e s; cbn [iterate].
  - split; [discriminate | intros (pre & x & post & mid & H & _); destruct pre; discriminate H].
  - split.
    + destruct (body (up_scopes (sc :: r_scopes st) st)) as [[] s1|e1 s1|p|] eqn:E; intros H; try discriminate H.
      * apply IH in H. destruct H as (pre & x & post & mid & -> & H1 & H2). exists (sc :: pre), x, post, mid. split; [reflexivity|]. split; [econstructor; eassumption | exact H2].
      * injection H as <- <-. exists [], sc, scs, st. split; [reflexivity|]. split; [constructor | exact E].
    + intros (pre & x & post & mid & H & H1 & H2). destruct pre as [|y pre]; injection H as -> ->.
      * inversion H1; subst. rewrite H2. reflexivity.
      * inversion H1; subst. match goal with H : body _ = ROk _ _ |- _ => rewrite H end. apply IH. exists pre, x, post, mid. auto.
Qed.
Definition finish (r : rres unit) : rres (option json) :=
  match r with ROk _ s => ROk None s | RErr e s => RErr e s | RPanic p => RPanic p | RFuel => RFuel end.
Lemma finish_spec body scs st r : r = finish (iterate body scs st) ->
  (forall v s, r = ROk v s <-> v = None /\ iterations body scs st s) /\ (forall e s, r = RErr e s <-> iteration_fails body scs st e s).
Proof.
  intros ->. split.
  - intros v s. rewrite <- iterate_ok. destruct (iterate body scs st) as [[] s1| | |]; cbn [finish]; intuition congruence.
  - intros e s. rewrite <- iterate_err. destruct (iterate body scs st) as [[] s1| | |]; cbn [finish]; intuition congruence.
Qed.
(** a body that leaves the scopes as they are *)
Definition tidy (I : rst -> Prop) (body : M unit) : Prop := forall st s, I st -> body st = ROk tt s -> r_scopes s = r_scopes st /\ I s.
Definition pop_end : hprog := HPopScope (fun _ => HRet None).
Lemma pop_end_run K en x ss st : run K en pop_end (up_scopes (x :: ss) st) = ROk None (up_scopes ss st).
Proof. reflexivity. Qed.
Section Each.
Variables (K : knot) (en : env) (t : tpl) (I : rst -> Prop).
Hypothesis HB : tidy I (template_ K en t).
Hypothesis HI : forall ss st, I st -> I (up_scopes ss st).
Lemma up_scopes_same st : up_scopes (r_scopes st) st = st.
Proof. destruct st; reflexivity. Qed.
(** locals of an earlier iteration *)
Definition arr_like (sc : scope) : Prop := sc_locals sc = [] \/ exists a b c, sc_locals sc = [(lit "@first", a); (lit "@index", b); (lit "@last", c)].
Definition obj_like (sc : scope) : Prop := sc_locals sc = [] \/ exists a b c d, sc_locals sc = [(lit "@first", a); (lit "@index", b); (lit "@key", d); (lit "@last", c)].
Lemma arr_set sc f l i v : arr_like sc -> each_locals f l i None v sc = mkScope (Some v) [(lit "@first", JBool f); (lit "@index", num_of_nat i); (lit "@last", JBool l)].
Proof. intros [H|(a & b & c & H)]; unfold each_locals, set_base_value, set_local; cbn [sc_locals sc_value]; rewrite H; reflexivity. Qed.
Lemma obj_set sc f l i k v : obj_like sc -> each_locals f l i (Some k) v sc = mkScope (Some v) [(lit "@first", JBool f); (lit "@index", num_of_nat i); (lit "@key", JStr k); (lit "@last", JBool l)].
Proof. intros [H|(a & b & c & d & H)]; unfold each_locals, set_base_value, set_local; cbn [sc_locals sc_value]; rewrite H; reflexivity. Qed.
Lemma each_arr_run len l : forall i sc st, i + length l = len -> arr_like sc -> I st ->
  run K en (each_arr t len i l pop_end) (up_scopes (sc :: r_scopes st) st) = finish (iterate (template_ K en t) (number (array_scope len) i l) st).
Proof.
  induction l as [|v l IH]; intros i sc st Hl Hs Hi.
  - cbn [each_arr number iterate finish]. rewrite pop_end_run, up_scopes_same. reflexivity.
  - cbn [each_arr number iterate run]. rewrite bind_upd. cbn [r_scopes up_scopes]. rewrite try_ret, (arr_set _ _ _ _ _ Hs).
    replace (i =? len - 1) with (S i =? len) by (simpl in Hl; destruct (Nat.eqb_spec (S i) len), (Nat.eqb_spec i (len - 1)); try reflexivity; lia).
    change (mkScope (Some v) _) with (array_scope len i v).
    change (up_scopes (array_scope len i v :: r_scopes st) (up_scopes (sc :: r_scopes st) st)) with (up_scopes (array_scope len i v :: r_scopes st) st).
    unfold bind. destruct (template_ K en t (up_scopes (array_scope len i v :: r_scopes st) st)) as [[] s1|e s1|p|] eqn:E; try reflexivity.
    destruct (HB _ _ (HI _ _ Hi) E) as [Hsc Hi1]. cbn [r_scopes up_scopes] in Hsc.
    rewrite <- (IH (S i) (array_scope len i v) (up_scopes (r_scopes st) s1)); [| simpl in Hl; lia | right; eexists _, _, _; reflexivity | apply HI, Hi1].
    cbn [r_scopes up_scopes]. f_equal. rewrite <- Hsc. symmetry. exact (up_scopes_same s1).
Qed.
Lemma each_obj_run len l : forall i sc st, i + length l = len -> obj_like sc -> I st ->
  run K en (each_obj t i l pop_end) (up_scopes (sc :: r_scopes st) st) = finish (iterate (template_ K en t) (number (object_scope len) i l) st).
Proof.
  induction l as [|[k v] l IH]; intros i sc st Hl Hs Hi.
  - cbn [each_obj number iterate finish]. rewrite pop_end_run, up_scopes_same. reflexivity.
  - cbn [each_obj number iterate run]. rewrite bind_upd. cbn [r_scopes up_scopes]. rewrite try_ret, (obj_set _ _ _ _ _ _ Hs).
    replace (match l with [] => true | _ => false end) with (S i =? len) by (simpl in Hl; destruct l; destruct (Nat.eqb_spec (S i) len); simpl in *; try reflexivity; lia).
    change (mkScope (Some v) _) with (object_scope len i (k, v)).
    change (up_scopes (object_scope len i (k, v) :: r_scopes st) (up_scopes (sc :: r_scopes st) st)) with (up_scopes (object_scope len i (k, v) :: r_scopes st) st).
    unfold bind. destruct (template_ K en t (up_scopes (object_scope len i (k, v) :: r_scopes st) st)) as [[] s1|e s1|p|] eqn:E; try reflexivity.
    destruct (HB _ _ (HI _ _ Hi) E) as [Hsc Hi1]. cbn [r_scopes up_scopes] in Hsc.
    rewrite <- (IH (S i) (object_scope len i (k, v)) (up_scopes (r_scopes st) s1)); [| simpl in Hl; lia | right; eexists _, _, _, _; reflexivity | apply HI, Hi1].
    cbn [r_scopes up_scopes]. f_equal. rewrite <- Hsc. symmetry. exact (up_scopes_same s1).
Qed.
End Each.
Lemma template_tidy fuel en t : all_helpers (balanced (Some 0)) (en_reg en) -> tidy (all_locals (balanced (Some 0))) (template_ (tie fuel) en t).
Proof.
  intros Hr st s Hl H. destruct (bal_tie en fuel Hr) as (A & B & C).
  pose proof (spec_template _ _ _ bal_frame (tie fuel) en A t st Hl) as X. rewrite H in X. destruct X as [X1 [X2 X3]]. auto.
Qed.
Theorem C30_each_array : forall pl h ctx l t fuel en st,
  builtin pl (lit "each") h -> hc_args ctx = [JArr l] ->
  all_helpers (balanced (Some 0)) (en_reg en) -> all_locals (balanced (Some 0)) st ->
  (forall v s, run (tie fuel) en (h ctx (Some t)) st = ROk v s <-> v = None /\ iterations (template_ (tie fuel) en t) (array_scopes l) st s)
  /\ (forall e s, run (tie fuel) en (h ctx (Some t)) st = RErr e s <-> iteration_fails (template_ (tie fuel) en t) (array_scopes l) st e s).
Proof.
  intros pl h ctx l t fuel en st Hb Ha Hr Hl. injection Hb as <-. apply finish_spec. unfold each_helper. args Ha. cbn [run]. rewrite bind_upd.
  apply (each_arr_run (tie fuel) en t _ (template_tidy fuel en t Hr)); [intros ss s H; exact H | reflexivity | left; reflexivity | exact Hl].
Qed.
Theorem C31_each_object : forall pl h ctx l t fuel en st,
  builtin pl (lit "each") h -> hc_args ctx = [JObj l] ->
  all_helpers (balanced (Some 0)) (en_reg en) -> all_locals (balanced (Some 0)) st ->
  (forall v s, run (tie fuel) en (h ctx (Some t)) st = ROk v s <-> v = None /\ iterations (template_ (tie fuel) en t) (object_scopes l) st s)
  /\ (forall e s, run (tie fuel) en (h ctx (Some t)) st = RErr e s <-> iteration_fails (template_ (tie fuel) en t) (object_scopes l) st e s).
Proof.
  intros pl h ctx l t fuel en st Hb Ha Hr Hl. injection Hb as <-. apply finish_spec. unfold each_helper. args Ha. cbn [run]. rewrite bind_upd.
  apply (each_obj_run (tie fuel) en t _ (template_tidy fuel en t Hr)); [intros ss s H; exact H | reflexivity | left; reflexivity | exact Hl].
Qed.
Theorem C32_with : forall pl h ctx v t fuel en st,
  builtin pl (lit "with") h -> hc_args ctx = [v] ->
  all_helpers (balanced (Some 0)) (en_reg en) -> all_locals (balanced (Some 0)) st ->
  (v <> JNull ->
     (forall r s, run (tie fuel) en (h ctx (Some t)) st = ROk r s <-> r = None /\ iterations (template_ (tie fuel) en t) [mkScope (Some v) []] st s)
     /\ (forall e s, run (tie fuel) en (h ctx (Some t)) st = RErr e s <-> iteration_fails (template_ (tie fuel) en t) [mkScope (Some v) []] st e s))
  /\ (v = JNull -> run (tie fuel) en (h ctx (Some t)) st = ROk None st).
Proof.
  intros pl h ctx v t fuel en st Hb Ha Hr Hl. injection Hb as <-. unfold with_helper. args Ha.
  assert (G : ctx_get ctx 0 = Some v) by (unfold ctx_get; rewrite Ha; reflexivity). rewrite G. split.
  - intros Hv. apply finish_spec.
    assert (R : run (tie fuel) en (HPushScope scope_new (HScopeMut (set_base_value v) (HTemplate t (htry (fun _ => HPopScope (fun _ => HRet None)))))) st
              = finish (iterate (template_ (tie fuel) en t) [mkScope (Some v) []] st)).
    { cbn [run iterate]. rewrite bind_upd, bind_upd. cbn [r_scopes up_scopes]. rewrite try_ret. change (set_base_value v scope_new) with (mkScope (Some v) []).
      change (up_scopes (mkScope (Some v) [] :: r_scopes st) (up_scopes (scope_new :: r_scopes st) st)) with (up_scopes (mkScope (Some v) [] :: r_scopes st) st).
      unfold bind at 1. destruct (template_ (tie fuel) en t (up_scopes (mkScope (Some v) [] :: r_scopes st) st)) as [[] s1|e s1|p|] eqn:E; try reflexivity.
      destruct (template_tidy fuel en t Hr (up_scopes (mkScope (Some v) [] :: r_scopes st) st) s1 Hl E) as [Hsc _]. cbn [r_scopes up_scopes] in Hsc.
      cbn [finish run]. rewrite bind_get, Hsc. reflexivity. }
    destruct v; try (contradiction Hv; reflexivity); exact R.
  - intros ->. reflexivity.
Qed.
(** the variables of iteration [i] *)
Lemma number_nth {A B} (f : nat -> A -> B) l : forall k i x, nth_error l i = Some x -> nth_error (number f k l) i = Some (f (k + i) x).
Proof.
  induction l as [|y l IH]; intros k [|i] x H; cbn in *; try discriminate H.
  - injection H as ->. rewrite Nat.add_0_r. reflexivity.
  - rewrite (IH (S k) i x H). do 2 f_equal. lia.
Qed.
Lemma number_length {A B} (f : nat -> A -> B) l : forall k, length (number f k l) = length l.
Proof. induction l as [|y l IH]; intros k; cbn; [reflexivity | rewrite IH; reflexivity]. Qed.
Theorem C30_iteration_variables : forall l, length (array_scopes l) = length l /\ forall i v, nth_error l i = Some v ->
  exists sc, nth_error (array_scopes l) i = Some sc /\ sc_value sc = Some v
    /\ assoc (lit "@index") (sc_locals sc) = Some (JNum (PosInt (N.of_nat i)))
    /\ assoc (lit "@first") (sc_locals sc) = Some (JBool (i =? 0))
    /\ assoc (lit "@last") (sc_locals sc) = Some (JBool (S i =? length l))
    /\ assoc (lit "@key") (sc_locals sc) = None.
Proof.
  intros l. split; [apply number_length|]. intros i v H. eexists. split; [apply (number_nth _ _ 0), H|]. cbn [Nat.add array_scope sc_value sc_locals]. auto.
Qed.
Theorem C31_iteration_variables : forall l, length (object_scopes l) = length l /\ forall i k v, nth_error l i = Some (k, v) ->
  exists sc, nth_error (object_scopes l) i = Some sc /\ sc_value sc = Some v
    /\ assoc (lit "@key") (sc_locals sc) = Some (JStr k)
    /\ assoc (lit "@index") (sc_locals sc) = Some (JNum (PosInt (N.of_nat i)))
    /\ assoc (lit "@first") (sc_locals sc) = Some (JBool (i =? 0))
    /\ assoc (lit "@last") (sc_locals sc) = Some (JBool (S i =? length l)).
Proof.
  intros l. split; [apply number_length|]. intros i k v H. eexists. split; [apply (number_nth _ _ 0), H|]. cbn [Nat.add object_scope sc_value sc_locals fst snd]. auto 10.
Qed.
(** keys come in increasing order, each once; objects are built by insertion *)
Theorem C31_key_order : forall l, key_sorted l ->
  NoDup (map fst l) /\ (forall k v, key_sorted (obj_insert k v l)) /\
  forall i j a b, i < j -> nth_error l i = Some a -> nth_error l j = Some b -> strcmp (fst a) (fst b) = Lt.
Proof.
  intros l H. split; [|split].
  - induction H as [|a l H IH Hf]; cbn; constructor; [|exact IH]. rewrite in_map_iff. intros (b & E & Hb). rewrite Forall_forall in Hf. specialize (Hf b Hb). rewrite E, strcmp_refl in Hf. discriminate Hf.
  - intros k v. induction H as [|[k' v'] l H IH Hf]; cbn [obj_insert].
    + constructor; [constructor | constructor].
    + destruct (strcmp k k') eqn:E.
      * apply strcmp_eq in E. subst k'. constructor; assumption.
      * constructor; [constructor; assumption|]. constructor; [exact E|]. eapply Forall_impl; [|exact Hf]. intros a Ha. cbn in *. exact (strcmp_trans _ _ _ E Ha).
      * constructor; [exact IH|]. clear IH H. assert (E' : strcmp k' k = Lt) by (rewrite strcmp_anti, E; reflexivity).
        induction l as [|[k2 v2] l IH]; cbn [obj_insert]; [constructor; [exact E' | constructor]|]. inversion Hf; subst.
        destruct (strcmp k k2) eqn:E2; [constructor; [exact E' | assumption] | constructor; [exact E'|]; constructor; assumption | constructor; [assumption | auto]].
  - induction H as [|a l H IH Hf]; intros i j x y Hij Hx Hy; [destruct i; discriminate Hx|].
    destruct j as [|j]; [lia|]. destruct i as [|i]; cbn in Hx, Hy.
    + injection Hx as ->. rewrite Forall_forall in Hf. apply Hf. eapply nth_error_In, Hy.
    + apply (IH i j); [lia | exact Hx | exact Hy].
Qed.
(** anything but an array or an object has no iterations *)
Theorem C30_each_nothing : forall pl h ctx v t K en st, builtin pl (lit "each") h -> hc_args ctx = [v] ->
  (forall l, v <> JArr l) -> (forall l, v <> JObj l) -> run K en (h ctx (Some t)) st = ROk None st.
Proof.
  intros pl h ctx v t K en st Hb Ha H1 H2. injection Hb as <-. unfold each_helper. args Ha.
  destruct v; try (destruct st; reflexivity); [contradiction (H1 l); reflexivity | contradiction (H2 l); reflexivity].
Qed.
Example C30_nonvacuous :
  all_helpers (balanced (Some 0)) reg0
  /\ once reg0 (lit "{{#each l}}{{@index}}{{@first}}{{@last}}{{this}} {{/each}}") (JObj [(lit "l", JArr [JStr (lit "a"); JStr (lit "b")])])
     = AOk (lit "0truefalsea 1falsetrueb ")
  /\ once reg0 (lit "{{#each l}}{{@key}}{{@index}}{{this}} {{/each}}{{#with l}}{{x}}{{/with}}") (JObj [(lit "l", JObj [(lit "x", JStr (lit "a")); (lit "y", JStr (lit "b"))])])
     = AOk (lit "x0a y1b a").
Proof. split; [apply builtins_balanced | vm_compute; auto]. Qed.
