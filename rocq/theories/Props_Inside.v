(** * Props_Inside: a part of a template, at any depth, can be moved into a partial (C83) *)
From Coq Require Import Lia String.
From Verif Require Import Str Lexer Json Ast Parser Render Helpers Registry Tests StrFacts Spec_Lexer Spec_Values Spec_Helpers Spec_Blocks Spec_Calls Props_Values Props_Calls Props_Context CycleFacts Spec_Source SynBlock SynLayout Props_Source Spec_Sem SemFacts SemItems Props_Sem Spec_Fail FailItems Props_Fail Spec_Total TotalFacts Props_Total Spec_Exchange Props_Exchange Props_Laws Spec_Data Spec_Extract ExtractFacts Props_Extract Spec_Inside.
Open Scope nat_scope. Open Scope list_scope.

Lemma blockless_glue a b : forallb blockless (glue a b) = true -> forallb blockless a = true /\ forallb blockless b = true.
Proof.
  induction a as [|i a IH]; [split; [reflexivity|assumption]|]. destruct (glue_cases i a b) as [(x & y & b' & -> & -> & -> & ->)| ->]; cbn [forallb blockless].
  - intros H. split; [reflexivity|exact H].
  - intros H. apply andb_prop in H. destruct H as [H1 H2]. destruct (IH H2) as [H3 H4]. now rewrite H1, H3.
Qed.
Definition plain_scope (s : scope) : Prop := sc_value s <> None /\ forall n t v, not_local n = true -> ~ in_locals (n :: t) s v.
Lemma locals_at p l n t x : Forall (fun kv => not_local (fst kv) = false) l -> not_local n = true -> ~ in_locals (n :: t) (mkScope p l) x.
Proof.
  intros L N H. assert (F : forall u, ~ has_field (JObj l) n u).
  { intros u F. inversion F as [pre k u' post X Y|]; subst. apply Forall_app in L. destruct L as [_ L]. inversion L as [|? ? L1]; subst. cbn in L1. congruence. }
  unfold in_locals in H. cbn [sc_locals] in H. inversion H; subst; eapply F; eassumption.
Qed.
Lemma number_plain {A} (f : nat -> A -> scope) (Hf : forall i x, plain_scope (f i x)) l : forall i, Forall plain_scope (number f i l).
Proof. induction l as [|x l IH]; intros i; cbn [number]; constructor; auto. Qed.
Lemma rounds_plain v its : iterations_of v its -> Forall plain_scope its.
Proof.
  intros [(l & _ & ->)|[(l & _ & ->)|(_ & _ & ->)]]; [apply number_plain|apply number_plain|constructor].
  - intros i x. split; [discriminate|]. intros n t u Hn. apply locals_at; [repeat constructor|exact Hn].
  - intros i x. split; [discriminate|]. intros n t u Hn. apply locals_at; [repeat constructor|exact Hn].
Qed.
Lemma with_plain v : plain_scope (mkScope (Some v) []).
Proof. split; [discriminate|]. intros n t u Hn. apply locals_at; [constructor|exact Hn]. Qed.
Lemma beside_push n act : beside n act (SPartial n :: act).
Proof.
  split.
  - intros s Hs. cbn [count_site]. destruct (site_eq (SPartial n) s) eqn:E; [|reflexivity]. destruct s as [m|m|m]; try discriminate E. cbn in E. apply streq_eq in E. subst m. now destruct Hs.
  - intros q Hq. cbn [In]. split; [|auto]. intros [E|X]; [|exact X]. injection E as E. now destruct Hq.
Qed.
Lemma given_args g w scs act n : Forall plain_scope scs -> exists x, extra g (w_data w) scs x /\ partial_args w scs act n (tag_args g) [] x.
Proof.
  intros P. destruct g; cbn [extra tag_args].
  - assert (T : exists b, this_is (w_data w) scs b /\ forall s r, scs = s :: r -> sc_value s = Some b /\ forall n t v, not_local n = true -> ~ in_locals (n :: t) s v).
    { destruct P as [|s r (P1 & P2) _]; [exists (w_data w); split; [constructor|discriminate]|]. destruct (sc_value s) as [b|] eqn:E; [|congruence]. exists b. split; [now constructor|]. intros s' r' X. injection X as <- <-. split; assumption. }
    destruct T as (b & T1 & T2). exists (again b). split; [exists b; split; [exact T1|split; [reflexivity|exact T2]]|].
    exists [b], [], []. split; [constructor; [apply av_path; now constructor|constructor]|]. split; [constructor|]. split; [|reflexivity]. split; [constructor|apply Permutation_refl].
  - exists nothing. split; [reflexivity|]. exists [], [], []. split; [constructor|]. split; [constructor|]. split; [|reflexivity]. split; [constructor|apply Permutation_refl].
Qed.

(** ** One item in a row is exchanged *)
Section Row.
Variables (w : world) (scs : list scope) (act : list site) (i i' : item).
Hypothesis Hbl : forall q x, assoc q (w_docs w) = Some x -> forallb blockless x = true.
Hypothesis Hb : before i' = before i.
Hypothesis Ha : after i' = after i.
Hypothesis Ho : forall s e pb o, item_out w scs act None pb s e i o -> item_out w scs act None pb s e i' o.
Lemma row_before e post : forall pre, next_before e (pre ++ i' :: post) = next_before e (pre ++ i :: post).
Proof. intros [|j pre]; [exact Hb|reflexivity]. Qed.
Lemma row_out post : forall pre s e pb o, forallb blockless pre = true -> items_out w scs act None pb s e (pre ++ i :: post) o -> items_out w scs act None pb s e (pre ++ i' :: post) o.
Proof.
  induction pre as [|j pre IH]; intros s e pb o B X; cbn [app] in *; inversion X as [|? ? ? pb1 ? ? ? ? ? o1 o2 X1 X2]; subst.
  - econstructor; [apply Ho; exact X1|]. rewrite Ha. exact X2.
  - cbn [forallb] in B. apply andb_prop in B. destruct B as [B1 B2]. pose proof (proj1 (stays_unset w Hbl) _ _ _ _ _ _ _ _ X1 eq_refl B1) as E. subst pb1.
    econstructor; [rewrite row_before; exact X1|now apply IH].
Qed.
Lemma row_err nm (He : forall s e o err, item_err w nm scs act None s e i o err -> item_err w nm scs act None s e i' o err) post :
  forall pre s e o err, forallb blockless pre = true -> items_err w nm scs act None s e (pre ++ i :: post) o err -> items_err w nm scs act None s e (pre ++ i' :: post) o err.
Proof.
  induction pre as [|j pre IH]; intros s e o err B X; cbn [app] in *; inversion X as [? ? ? ? ? ? ? ? ? X1|? ? ? pb1 ? ? ? ? o1 o2 ? X1 X2]; subst.
  - apply err_here. apply He. exact X1.
  - eapply err_later; [apply Ho; exact X1|]. rewrite Ha. exact X2.
  - apply err_here. rewrite row_before. exact X1.
  - cbn [forallb] in B. apply andb_prop in B. destruct B as [B1 B2]. pose proof (proj1 (stays_unset w Hbl) _ _ _ _ _ _ _ _ X1 eq_refl B1) as E. subst pb1.
    eapply err_later; [rewrite row_before; exact X1|now apply IH].
Qed.
End Row.

(** ** One branch of a block is exchanged *)
Section Branch.
Variables (w : world) (h : option callx * tildes) (x x' : list item) (b2 : list branch).
Definition heads : list branch -> list branch -> Prop := Forall2 (fun b b' => fst b = fst b').
Lemma heads_refl l : heads l l.
Proof. induction l; constructor; auto. Qed.
Lemma heads_swap b1 : heads (b1 ++ (h, x) :: b2) (b1 ++ (h, x') :: b2).
Proof. induction b1; cbn [app]; constructor; auto. apply heads_refl. Qed.
Lemma heads_fail scs act l l' : heads l l' -> Forall (cond_fails w scs act) l -> Forall (cond_fails w scs act) l'.
Proof. induction 1 as [|b b' l l' E H IH]; intros F; [constructor|]. inversion F; subst. constructor; [|auto]. intros c Hc. unfold br_cond in Hc. rewrite <- E in Hc. eauto. Qed.
Lemma heads_in l l' : heads l l' -> (forall b, In b l -> br_cond b <> None) -> forall b, In b l' -> br_cond b <> None.
Proof.
  induction 1 as [|b b' l l' E H IH]; intros F y Hy; [destruct Hy|]. destruct Hy as [<-|Hy].
  - unfold br_cond. rewrite <- E. apply F. now left.
  - apply IH; [|exact Hy]. intros z Hz. apply F. now right.
Qed.
Lemma heads_tag l l' m' : heads l l' -> next_tag l' m' = next_tag l m'.
Proof. destruct 1 as [|b b' l l' E H]; [reflexivity|]. cbn [next_tag]. unfold br_tildes. now rewrite E. Qed.
Definition swapped (b b' : branch) (post post' : list branch) : Prop := fst b = fst b' /\ heads post post' /\ (snd b' = snd b \/ b = (h, x) /\ b' = (h, x') /\ post = b2).
Lemma split_swap : forall b1 pre b post, b1 ++ (h, x) :: b2 = pre ++ b :: post ->
  exists pre' b' post', b1 ++ (h, x') :: b2 = pre' ++ b' :: post' /\ heads pre pre' /\ swapped b b' post post'.
Proof.
  induction b1 as [|y b1 IH]; intros [|z pre] b post E; cbn [app] in E; injection E as E1 E2; subst.
  - exists [], (h, x'), b2. split; [reflexivity|]. split; [constructor|]. split; [reflexivity|]. split; [apply heads_refl|now right].
  - exists ((h, x') :: pre), b, post. split; [cbn [app]; now rewrite E2|]. split; [|repeat split]; [constructor; [reflexivity|apply heads_refl]|apply heads_refl|now left].
  - exists [], b, (b1 ++ (h, x') :: b2). split; [reflexivity|]. split; [constructor|]. split; [reflexivity|]. split; [apply heads_swap|now left].
  - destruct (IH _ _ _ E2) as (pre' & b' & post' & E3 & H1 & H2). exists (z :: pre'), b', post'. cbn [app]. rewrite E3. split; [reflexivity|]. split; [|exact H2]. constructor; auto.
Qed.
Lemma else_swap scs act b1 r : else_branch w scs act (b1 ++ (h, x) :: b2) r -> exists r', else_branch w scs act (b1 ++ (h, x') :: b2) r' /\
  match r, r' with None, None => True | Some (b, post), Some (b', post') => swapped b b' post post' | _, _ => False end.
Proof.
  intros X. destruct X as [pre b post c v E H1 H2 H3 H4|pre b post E H1 H2 H3|H1 H2].
  - destruct (split_swap _ _ _ _ E) as (pre' & b' & post' & E' & P & S). exists (Some (b', post')). split; [|exact S].
    eapply else_cond; [exact E'|eapply heads_fail; eassumption| |eassumption|assumption]. unfold br_cond. rewrite <- (proj1 S). exact H2.
  - destruct (split_swap _ _ _ _ E) as (pre' & b' & post' & E' & P & S). exists (Some (b', post')). split; [|exact S].
    eapply else_plain; [exact E'|eapply heads_fail; [apply heads_swap|exact H1]| |eapply heads_in; [exact (proj1 (proj2 S))|exact H3]]. unfold br_cond. rewrite <- (proj1 S). exact H2.
  - exists None. split; [|exact I]. apply else_none; [eapply heads_fail; [apply heads_swap|exact H1]|eapply heads_in; [apply heads_swap|exact H2]].
Qed.
Lemma breaks_swap nm scs act b1 err : cond_breaks w nm scs act (b1 ++ (h, x) :: b2) err -> cond_breaks w nm scs act (b1 ++ (h, x') :: b2) err.
Proof.
  intros [pre b post c E H1 H2 H3]. destruct (split_swap _ _ _ _ E) as (pre' & b' & post' & E' & P & S). eapply cond_break; [exact E'|eapply heads_fail; eassumption| |exact H3].
  unfold br_cond. rewrite <- (proj1 S). exact H2.
Qed.
End Branch.

(** ** The part is exchanged wherever it stands *)
Section Inside.
Variables (g : bool) (w : world) (n : str) (d : list item).
Hypothesis Hun : unaware_registry w.
Hypothesis Hbm : rg_block_missing (w_reg w) = None.
Hypothesis Hstd : forall q, In q block_helpers -> assoc q (rg_helpers (w_reg w)) <> None -> standard w q.
Hypothesis Hdocs : forall q x, q <> n -> assoc q (w_docs w) = Some x -> forallb (item_own g (w_reg w) n 1) x = true.
Hypothesis Hd : assoc n (w_docs w) = Some d.
Hypothesis Hown : forallb (item_own g (w_reg w) n 0) d = true.
Hypothesis Hblock : forall q x, assoc q (w_docs w) = Some x -> forallb blockless x = true.
Hypothesis Sd : open_start d.
Hypothesis Ed : open_end d.
Lemma no_steps scs q name f prop : In q block_helpers \/ assoc q (rg_helpers (w_reg w)) = None -> block_by w scs q name f prop -> False.
Proof.
  intros C X. destruct X as [f X1 X2|f v X1 X2 X3]; [|congruence]. destruct C as [C|C]; [|congruence].
  destruct (Hstd q C ltac:(congruence)) as (g0 & G1 & G2). apply X2. split; [exact C|]. assert (g0 = f) by congruence. now subst.
Qed.
Definition free (scs : list scope) (act : list site) : Prop := ~ In (SPartial n) act /\ Forall plain_scope scs.
Lemma free_block scs act q : free scs act -> free scs (SBlock q :: act).
Proof. intros (H & P). split; [|exact P]. intros [E|X]; [discriminate E|exact (H X)]. Qed.
Lemma free_in sc scs act : plain_scope sc -> free scs act -> free (sc :: scs) act.
Proof. intros P (H & Q). split; [exact H|now constructor]. Qed.
Lemma free_with v scs act q : free scs act -> free (mkScope (Some v) [] :: scs) (SBlock q :: act).
Proof. intros H. apply free_in; [apply with_plain|now apply free_block]. Qed.
Section Here.
Variables (scs : list scope) (act : list site) (s e : bool) (pre post : list item) (tr : bool) (m : tildes).
Hypothesis Hfree : free scs act.
Hypothesis Epre : ends_open s pre.
Hypothesis Spost : starts_open e post.
Hypothesis M1 : tl_before m = false.
Hypothesis M2 : tl_after m = false.
Hypothesis Hpre : forallb blockless pre = true.
Lemma here_out pb out : items_out w scs act None pb s e (glue pre (glue d post)) out -> items_out w scs act None pb s e (pre ++ ICall tr m true (Call (HdName n) [] (tag_args g) []) :: post) out.
Proof.
  destruct Hfree as (Hin & Hpl). destruct (given_args g w scs act n Hpl) as (x & Xx & Xa). intros X. destruct (glue_out w scs act _ e (glue_start e d post Sd Spost) pre s None pb out Epre X) as (pb1 & o1 & o2 & -> & X1 & X2).
  pose proof (proj1 (proj2 (stays_unset w Hblock)) _ _ _ _ _ _ _ _ X1 eq_refl Hpre) as ->.
  destruct (glue_out w scs act _ e Spost d false None pb o2 Ed X2) as (pb2 & o3 & o4 & -> & X3 & X4).
  destruct (proj1 (proj2 (out_in g w n Hun Hbm Hstd Hdocs)) _ _ _ _ _ _ _ _ X3 0 (x :: scs) (SPartial n :: act) Hown (under_top g (w_data w) scs x Xx) (beside_push n act) eq_refl) as (X5 & ->).
  eapply items_out_app; [cbn [next_before before]; rewrite M1; exact X1|]. rewrite (proj1 Epre). eapply out_cons; [|cbn [after]; rewrite M2; exact X4].
  rewrite (proj1 Spost). eapply io_partial; [apply own_name|exact Hin|right; split; [right; reflexivity|exact Hd]|exact Xa|exact X5].
Qed.
Lemma here_err nm out err : items_err w nm scs act None s e (glue pre (glue d post)) out err -> items_err w nm scs act None s e (pre ++ ICall tr m true (Call (HdName n) [] (tag_args g) []) :: post) out err.
Proof.
  destruct Hfree as (Hin & Hpl). destruct (given_args g w scs act n Hpl) as (x & Xx & Xa). intros X. destruct (glue_err w nm scs act _ e (glue_start e d post Sd Spost) pre s None out err Epre X) as [X1|(pb1 & o1 & o2 & -> & X1 & X2)].
  - apply items_err_first. cbn [next_before before]. rewrite M1. exact X1.
  - pose proof (proj1 (proj2 (stays_unset w Hblock)) _ _ _ _ _ _ _ _ X1 eq_refl Hpre) as ->.
    eapply items_err_second; [cbn [next_before before]; rewrite M1; exact X1|]. rewrite (proj1 Epre).
    destruct (glue_err w nm scs act _ e Spost d false None o2 err Ed X2) as [X3|(pb2 & o3 & o4 & -> & X3 & X4)].
    + apply err_here. rewrite (proj1 Spost). eapply ie_partial; [apply own_name|exact Hin|right; split; [right; reflexivity|exact Hd]|exact Xa|].
      exact (proj1 (proj2 (err_in g w n Hun Hbm Hstd Hdocs nm)) _ _ _ _ _ _ _ _ X3 0 (x :: scs) (SPartial n :: act) Hown (under_top g (w_data w) scs x Xx) (beside_push n act) eq_refl).
    + destruct (proj1 (proj2 (out_in g w n Hun Hbm Hstd Hdocs)) _ _ _ _ _ _ _ _ X3 0 (x :: scs) (SPartial n :: act) Hown (under_top g (w_data w) scs x Xx) (beside_push n act) eq_refl) as (X5 & ->).
      eapply err_later; [|cbn [after]; rewrite M2; exact X4]. rewrite (proj1 Spost). eapply io_partial; [apply own_name|exact Hin|right; split; [right; reflexivity|exact Hd]|exact Xa|exact X5].
Qed.
End Here.
(** ** Blocks whose content has been exchanged *)
Section Body.
Variables (s0 e0 : bool) (l l' : list item).
Hypothesis Hl : forallb blockless l = true.
Hypothesis IO : forall scs act pb o, free scs act -> items_out w scs act None pb s0 e0 l o -> items_out w scs act None pb s0 e0 l' o.
Lemma rounds_body : forall its scs act pb o, Forall plain_scope its -> free scs act -> rounds_out w its scs act None pb s0 e0 l o -> rounds_out w its scs act None pb s0 e0 l' o.
Proof.
  induction its as [|sc its IH]; intros scs act pb o P F X; inversion P as [|? ? P1 P2]; subst; inversion X as [|? ? ? ? ? pb1 ? ? ? ? o1 o2 X1 X2]; subst; [constructor|].
  pose proof (proj1 (proj2 (stays_unset w Hblock)) _ _ _ _ _ _ _ _ X1 eq_refl Hl) as E. subst pb1. econstructor; [apply IO; [now apply free_in|exact X1]|]. now apply IH.
Qed.
Lemma rounds_fail nm (IE : forall scs act o err, free scs act -> items_err w nm scs act None s0 e0 l o err -> items_err w nm scs act None s0 e0 l' o err) :
  forall its scs act o err, Forall plain_scope its -> free scs act -> rounds_err w nm its scs act None s0 e0 l o err -> rounds_err w nm its scs act None s0 e0 l' o err.
Proof.
  induction its as [|sc its IH]; intros scs act o err P F X; inversion P as [|? ? P1 P2]; subst; inversion X as [? ? ? ? ? ? ? ? ? ? X1|? ? ? ? ? pb1 ? ? ? o1 o2 ? X1 X2]; subst.
  - apply round_here. apply IE; [now apply free_in|assumption].
  - pose proof (proj1 (proj2 (stays_unset w Hblock)) _ _ _ _ _ _ _ _ X1 eq_refl Hl) as E. subst pb1. eapply round_later; [apply IO; [now apply free_in|exact X1]|]. now apply IH.
Qed.
End Body.
Lemma body_out scs act q xs hs m body body' bs m' : free scs act -> In q block_helpers \/ assoc q (rg_helpers (w_reg w)) = None -> forallb blockless body = true ->
  (forall scs act pb o, free scs act -> items_out w scs act None pb (tl_after m) (tl_before (next_tag bs m')) body o -> items_out w scs act None pb (tl_after m) (tl_before (next_tag bs m')) body' o) ->
  forall s e pb o, item_out w scs act None pb s e (IBlock false (Call (HdName q) [] xs hs) m body bs m') o -> item_out w scs act None pb s e (IBlock false (Call (HdName q) [] xs hs) m body' bs m') o.
Proof.
  intros F C B IO s e pb o X.
  inversion X; subst; try (econstructor; try eassumption; first [apply IO; [|eassumption]|eapply rounds_body; try eassumption]; first [assumption|now apply free_with|now apply free_block|eapply rounds_plain; eassumption]); try (econstructor; eassumption).
  exfalso. eapply no_steps; eassumption.
Qed.
Lemma body_err nm scs act q xs hs m body body' bs m' : free scs act -> In q block_helpers \/ assoc q (rg_helpers (w_reg w)) = None -> forallb blockless body = true ->
  (forall scs act pb o, free scs act -> items_out w scs act None pb (tl_after m) (tl_before (next_tag bs m')) body o -> items_out w scs act None pb (tl_after m) (tl_before (next_tag bs m')) body' o) ->
  (forall scs act o err, free scs act -> items_err w nm scs act None (tl_after m) (tl_before (next_tag bs m')) body o err -> items_err w nm scs act None (tl_after m) (tl_before (next_tag bs m')) body' o err) ->
  forall s e o err, item_err w nm scs act None s e (IBlock false (Call (HdName q) [] xs hs) m body bs m') o err -> item_err w nm scs act None s e (IBlock false (Call (HdName q) [] xs hs) m body' bs m') o err.
Proof.
  intros F C B IO IE s e o err X.
  inversion X; subst; try (econstructor; try eassumption; first [apply IE; [|eassumption]|eapply rounds_fail; try eassumption]; first [assumption|now apply free_with|now apply free_block|eapply rounds_plain; eassumption]); try (econstructor; eassumption).
  exfalso. eapply no_steps; eassumption.
Qed.
Section Else.
Variables (c : option callx) (t : tildes) (x x' : list item) (bs1 bs2 : list branch) (m' : tildes).
Hypothesis IO : forall scs act pb o, free scs act -> items_out w scs act None pb (tl_after t) (tl_before (next_tag bs2 m')) x o -> items_out w scs act None pb (tl_after t) (tl_before (next_tag bs2 m')) x' o.
Notation bs := (bs1 ++ (c, t, x) :: bs2).
Notation bs' := (bs1 ++ (c, t, x') :: bs2).
Lemma swap_tag : next_tag bs' m' = next_tag bs m'.
Proof. destruct bs1; reflexivity. Qed.
Lemma else_moved scs act pb r o : free scs act -> else_branch w scs act bs r -> else_out w scs act None pb m' r o -> exists r', else_branch w scs act bs' r' /\ else_out w scs act None pb m' r' o.
Proof.
  intros F X Y. destruct (else_swap w (c, t) x x' bs2 scs act bs1 r X) as (r' & X' & S). exists r'. split; [exact X'|].
  destruct r as [[b post]|], r' as [[b' post']|]; try contradiction; [|inversion Y; constructor]. destruct S as (S1 & S2 & S3). inversion Y as [|? ? ? ? ? ? ? ? Z]; subst. constructor.
  rewrite (heads_tag _ _ m' S2). destruct S3 as [S3|(-> & -> & ->)]; [|apply IO; [exact F|exact Z]]. unfold br_body, br_tildes in *. rewrite S3, <- S1. exact Z.
Qed.
Lemma else_moved_err nm (IE : forall scs act o err, free scs act -> items_err w nm scs act None (tl_after t) (tl_before (next_tag bs2 m')) x o err -> items_err w nm scs act None (tl_after t) (tl_before (next_tag bs2 m')) x' o err)
  scs act o err : free scs act -> else_err w nm scs act None bs m' o err -> else_err w nm scs act None bs' m' o err.
Proof.
  intros F X. inversion X as [? ? ? ? ? ? X1|? ? ? ? ? b post ? ? X1 Z]; subst.
  - apply else_err_cond. now apply breaks_swap with (x := x).
  - destruct (else_swap w (c, t) x x' bs2 scs act bs1 _ X1) as ([[b' post']|] & X' & S); [|contradiction]. destruct S as (S1 & S2 & S3). eapply else_err_body; [exact X'|].
    rewrite (heads_tag _ _ m' S2). destruct S3 as [S3|(-> & -> & ->)]; [|apply IE; [exact F|exact Z]]. unfold br_body, br_tildes in *. rewrite S3, <- S1. exact Z.
Qed.
Lemma branch_out scs act q xs hs m body : free scs act -> In q block_helpers \/ assoc q (rg_helpers (w_reg w)) = None ->
  forall s e pb o, item_out w scs act None pb s e (IBlock false (Call (HdName q) [] xs hs) m body bs m') o -> item_out w scs act None pb s e (IBlock false (Call (HdName q) [] xs hs) m body bs' m') o.
Proof.
  intros F C s e pb o X.
  inversion X; subst; try (econstructor; try rewrite swap_tag; eassumption).
  3: exfalso; eapply no_steps; eassumption.
  all: match goal with X1 : else_branch _ _ _ _ _, X2 : else_out _ _ _ _ _ _ _ _ |- _ => destruct (else_moved _ _ _ _ _ (free_block _ _ _ F) X1 X2) as (r' & X3 & X4) end.
  - eapply io_if_else; eassumption.
  - eapply io_unless_else; eassumption.
Qed.
Lemma branch_err nm (IE : forall scs act o err, free scs act -> items_err w nm scs act None (tl_after t) (tl_before (next_tag bs2 m')) x o err -> items_err w nm scs act None (tl_after t) (tl_before (next_tag bs2 m')) x' o err)
  scs act q xs hs m body : free scs act -> In q block_helpers \/ assoc q (rg_helpers (w_reg w)) = None ->
  forall s e o err, item_err w nm scs act None s e (IBlock false (Call (HdName q) [] xs hs) m body bs m') o err -> item_err w nm scs act None s e (IBlock false (Call (HdName q) [] xs hs) m body bs' m') o err.
Proof.
  intros F C s e o err X.
  inversion X; subst; try (econstructor; try rewrite swap_tag; eassumption).
  3: exfalso; eapply no_steps; eassumption.
  all: match goal with X1 : else_err _ _ _ _ _ _ _ _ _ |- _ => pose proof (else_moved_err nm IE _ _ _ _ (free_block _ _ _ F) X1) as X2 end.
  - eapply ie_if_else; eassumption.
  - eapply ie_unless_else; eassumption.
Qed.
End Else.
Lemma moved_same s e a b : moved (w_reg w) n d (tag_args g) s e a b -> forallb blockless a = true ->
  (forall scs act pb o, free scs act -> items_out w scs act None pb s e a o -> items_out w scs act None pb s e b o)
  /\ (forall nm scs act o err, free scs act -> items_err w nm scs act None s e a o err -> items_err w nm scs act None s e b o err).
Proof.
  intros M. induction M as [s e pre post tr m H1 H2 H3 H4|s e pre q ys hs m body body' bs m' post C M IH|s e pre q ys hs m body bs1 c t x x' bs2 m' post C M IH]; intros B.
  - destruct (blockless_glue _ _ B) as (B1 & _). split; intros; [now apply here_out|now apply here_err].
  - rewrite forallb_app in B. apply andb_prop in B. destruct B as [B1 B2]. cbn [forallb blockless] in B2. apply andb_prop in B2. destruct B2 as [B2 _]. apply andb_prop in B2. destruct B2 as [B2 _]. cbn [negb andb] in B2.
    destruct (IH B2) as (IO & IE). split.
    + intros scs act pb o F. apply row_out; try assumption; try reflexivity. now apply body_out.
    + intros nm scs act o err F. apply row_err; try assumption; try reflexivity; [now apply body_out|apply body_err; auto].
  - rewrite forallb_app in B. apply andb_prop in B. destruct B as [B1 B2]. cbn [forallb blockless] in B2. apply andb_prop in B2. destruct B2 as [B2 _]. apply andb_prop in B2. destruct B2 as [_ B2].
    rewrite forallb_app in B2. apply andb_prop in B2. destruct B2 as [_ B2]. cbn [forallb snd] in B2. apply andb_prop in B2. destruct B2 as [B2 _].
    destruct (IH B2) as (IO & IE). split.
    + intros scs act pb o F. apply row_out; try assumption; try reflexivity. now apply branch_out.
    + intros nm scs act o err F. apply row_err; try assumption; try reflexivity; [now apply branch_out|apply branch_err; auto].
Qed.
End Inside.

Lemma part_moved : forall (g : bool) pl reg data docs n d a b s s' name wr o o' te te', let w := mkWorld pl reg data docs in
  unaware_registry w -> rg_block_missing reg = None -> (forall q, In q block_helpers -> assoc q (rg_helpers reg) <> None -> standard w q) ->
  assoc n docs = Some d -> forallb (item_own g reg n 0) d = true ->
  (forall q x, q <> n -> assoc q docs = Some x -> forallb (item_own g reg n 1) x = true) ->
  forallb blockless a = true -> (forall q x, assoc q docs = Some x -> forallb blockless x = true) ->
  open_start d -> open_end d -> moved reg n d (tag_args g) false false a b ->
  fits w -> closed w ->
  doc_ok (pl_penv pl) a -> Forall (regular w) a -> Forall (tame w) a -> doc_writes Loose a s ->
  doc_ok (pl_penv pl) b -> Forall (regular w) b -> doc_writes Loose b s' ->
  (forall h s, exists k, wr h s = WOk k) -> template_compile pl o s = AOk te -> template_compile pl o' s' = AOk te' ->
  exists B, forall fuel, B <= fuel ->
    let x := template_render fuel pl reg name (te_tpl te) data wr [] in
    let x' := template_render fuel pl reg name (te_tpl te') data wr [] in
    fst x' = fst x /\ fst x <> AFuel /\ ((forall p, fst x <> APanic p) -> concat (snd x') = concat (snd x)).
Proof.
  intros g pl reg data docs n d a b s s' name wr o o' te te' w Hun Hbm Hst Ha Hown Hdocs Hbla Hbl E2 E3 M Hf Hc D1 R1 T1 W1 D2 R2 W2 Hw Hte Hte'.
  destruct (moved_same g w n d Hun Hbm Hst Hdocs Ha Hown Hbl E2 E3 false false a b M Hbla) as (MO & ME).
  destruct (C65_total w name _ Hf Hc D1 T1) as [(pb & out & X)|(out & err & X)].
  - pose proof (MO [] [] pb out (conj (fun F => F) (Forall_nil _)) X) as X'.
    destruct (C55_semantics pl reg data docs _ s pb out name wr o te Hf D1 W1 R1 X Hw Hte) as (B & HB).
    destruct (C55_semantics pl reg data docs _ s' pb out name wr o' te' Hf D2 W2 R2 X' Hw Hte') as (B' & HB').
    exists (B + B'). intros fuel Hfu x x'. destruct (HB fuel ltac:(lia)) as (p1 & F1 & G1). destruct (HB' fuel ltac:(lia)) as (p2 & F2 & G2). unfold x, x'. rewrite F1, F2. cbn [fst snd].
    split; [reflexivity|]. split; [discriminate|]. intros _. congruence.
  - pose proof (ME name [] [] out err (conj (fun F => F) (Forall_nil _)) X) as X'. destruct err as [err|].
    + destruct (C64_semantics pl reg data docs _ s out err name wr o te Hf D1 W1 R1 X Hw Hte) as (B & HB).
      destruct (C64_semantics pl reg data docs _ s' out err name wr o' te' Hf D2 W2 R2 X' Hw Hte') as (B' & HB').
      exists (B + B'). intros fuel Hfu x x'. destruct (HB fuel ltac:(lia)) as (p1 & F1 & G1). destruct (HB' fuel ltac:(lia)) as (p2 & F2 & G2). unfold x, x'. rewrite F1, F2. cbn [fst snd].
      split; [reflexivity|]. split; [discriminate|]. intros _. congruence.
    + destruct (C64_panics pl reg data docs _ s out name wr o te Hf D1 W1 R1 X Hw Hte) as (B & HB).
      destruct (C64_panics pl reg data docs _ s' out name wr o' te' Hf D2 W2 R2 X' Hw Hte') as (B' & HB').
      exists (B + B'). intros fuel Hfu x x'. pose proof (HB fuel ltac:(lia)) as F1. pose proof (HB' fuel ltac:(lia)) as F2. unfold x, x'. rewrite F1, F2.
      split; [reflexivity|]. split; [discriminate|]. intros Y. destruct (Y _ eq_refl).
Qed.

Lemma part_moved_once : forall (g : bool) pl reg data docs n d a b s s' name r, let w := mkWorld pl reg data docs in
  only_standard w ->
  assoc n docs = Some d -> forallb (item_own g reg n 0) d = true ->
  (forall q x, q <> n -> assoc q docs = Some x -> forallb (item_own g reg n 1) x = true) ->
  forallb blockless a = true -> (forall q x, assoc q docs = Some x -> forallb blockless x = true) ->
  open_start d -> open_end d -> moved reg n d (tag_args g) false false a b ->
  fits w -> closed w ->
  doc_ok (pl_penv pl) a -> Forall (regular w) a -> Forall (tame w) a -> doc_writes Loose a s ->
  doc_ok (pl_penv pl) b -> Forall (regular w) b -> doc_writes Loose b s' ->
  (answers pl reg data name s' r <-> answers pl reg data name s r).
Proof.
  intros g pl reg data docs n d a b s s' name r w (Ho & Ho1 & Ho2 & Ho3) Ha Hown Hdocs Hbla Hbl E2 E3 M Hf Hc D1 R1 T1 W1 D2 R2 W2.
  destruct (compiles pl _ s (mkOpts name 0 0) D1 W1) as (te & Hte). destruct (compiles pl _ s' (mkOpts name 0 0) D2 W2) as (te' & Hte').
  assert (Hun : unaware_registry w).
  { intros f [(q & X)|[X|X]]; [exact (C83_standard_unaware w q f (Ho q f X))|congruence|congruence]. }
  assert (Hst : forall q, In q block_helpers -> assoc q (rg_helpers reg) <> None -> standard w q).
  { intros q _ X. destruct (assoc q (rg_helpers reg)) as [f|] eqn:E; [|congruence]. exists f. split; [exact (Ho q f E)|exact E]. }
  destruct (part_moved g pl reg data docs n d a b s s' name string_writer _ _ te te' Hun Ho2 Hst Ha Hown Hdocs Hbla Hbl E2 E3 M Hf Hc D1 R1 T1 W1 D2 R2 W2 ltac:(intros; eexists; reflexivity) Hte Hte') as (B & HB).
  assert (E : forall fuel, B <= fuel -> registry_once fuel pl reg name s' data = registry_once fuel pl reg name s data).
  { intros fuel Hfu. destruct (HB fuel Hfu) as (H1 & H2 & H3). unfold registry_once. rewrite Hte, Hte'. unfold to_str.
    destruct (template_render fuel pl reg name (te_tpl te) data string_writer []) as [x p], (template_render fuel pl reg name (te_tpl te') data string_writer []) as [x' p']. cbn [fst snd] in *. subst x'.
    destruct x; try reflexivity. f_equal. apply H3. discriminate. }
  split; intros (K & HK); exists (B + K); intros fuel Hfu; [rewrite <- E by lia|rewrite E by lia]; apply HK; lia.
Qed.

(** [b] is the template [a] with a part [d], anywhere outside of partials, replaced by [{{> n}}]: they give the same result, and write the same text up to an error. *)
Theorem C83_inside : forall pl reg data docs n d a b s s' name wr o o' te te', let w := mkWorld pl reg data docs in
  unaware_registry w -> rg_block_missing reg = None -> (forall q, In q block_helpers -> assoc q (rg_helpers reg) <> None -> standard w q) ->
  assoc n docs = Some d -> forallb (item_own false reg n 0) d = true ->
  (forall q x, q <> n -> assoc q docs = Some x -> forallb (item_own false reg n 1) x = true) ->
  forallb blockless a = true -> (forall q x, assoc q docs = Some x -> forallb blockless x = true) ->
  open_start d -> open_end d -> moved reg n d [] false false a b ->
  fits w -> closed w ->
  doc_ok (pl_penv pl) a -> Forall (regular w) a -> Forall (tame w) a -> doc_writes Loose a s ->
  doc_ok (pl_penv pl) b -> Forall (regular w) b -> doc_writes Loose b s' ->
  (forall h s, exists k, wr h s = WOk k) -> template_compile pl o s = AOk te -> template_compile pl o' s' = AOk te' ->
  exists B, forall fuel, B <= fuel ->
    let x := template_render fuel pl reg name (te_tpl te) data wr [] in
    let x' := template_render fuel pl reg name (te_tpl te') data wr [] in
    fst x' = fst x /\ fst x <> AFuel /\ ((forall p, fst x <> APanic p) -> concat (snd x') = concat (snd x)).
Proof. exact (part_moved false). Qed.
Print Assumptions C83_inside.

(** the same for [once], with the standard helpers *)
Theorem C83_inside_once : forall pl reg data docs n d a b s s' name r, let w := mkWorld pl reg data docs in
  only_standard w ->
  assoc n docs = Some d -> forallb (item_own false reg n 0) d = true ->
  (forall q x, q <> n -> assoc q docs = Some x -> forallb (item_own false reg n 1) x = true) ->
  forallb blockless a = true -> (forall q x, assoc q docs = Some x -> forallb blockless x = true) ->
  open_start d -> open_end d -> moved reg n d [] false false a b ->
  fits w -> closed w ->
  doc_ok (pl_penv pl) a -> Forall (regular w) a -> Forall (tame w) a -> doc_writes Loose a s ->
  doc_ok (pl_penv pl) b -> Forall (regular w) b -> doc_writes Loose b s' ->
  (answers pl reg data name s' r <-> answers pl reg data name s r).
Proof. exact (part_moved_once false). Qed.
Print Assumptions C83_inside_once.

(** [b] is the template [a] with a part [d], anywhere outside of partials, replaced by [{{> n this}}]: they give the same result, and write the same text up to an error. *)
Theorem C85_given_this : forall pl reg data docs n d a b s s' name wr o o' te te', let w := mkWorld pl reg data docs in
  unaware_registry w -> rg_block_missing reg = None -> (forall q, In q block_helpers -> assoc q (rg_helpers reg) <> None -> standard w q) ->
  assoc n docs = Some d -> forallb (item_own true reg n 0) d = true ->
  (forall q x, q <> n -> assoc q docs = Some x -> forallb (item_own true reg n 1) x = true) ->
  forallb blockless a = true -> (forall q x, assoc q docs = Some x -> forallb blockless x = true) ->
  open_start d -> open_end d -> moved reg n d [EPath HdThis []] false false a b ->
  fits w -> closed w ->
  doc_ok (pl_penv pl) a -> Forall (regular w) a -> Forall (tame w) a -> doc_writes Loose a s ->
  doc_ok (pl_penv pl) b -> Forall (regular w) b -> doc_writes Loose b s' ->
  (forall h s, exists k, wr h s = WOk k) -> template_compile pl o s = AOk te -> template_compile pl o' s' = AOk te' ->
  exists B, forall fuel, B <= fuel ->
    let x := template_render fuel pl reg name (te_tpl te) data wr [] in
    let x' := template_render fuel pl reg name (te_tpl te') data wr [] in
    fst x' = fst x /\ fst x <> AFuel /\ ((forall p, fst x <> APanic p) -> concat (snd x') = concat (snd x)).
Proof. exact (part_moved true). Qed.
Print Assumptions C85_given_this.

(** the same for [once], with the standard helpers *)
Theorem C85_once : forall pl reg data docs n d a b s s' name r, let w := mkWorld pl reg data docs in
  only_standard w ->
  assoc n docs = Some d -> forallb (item_own true reg n 0) d = true ->
  (forall q x, q <> n -> assoc q docs = Some x -> forallb (item_own true reg n 1) x = true) ->
  forallb blockless a = true -> (forall q x, assoc q docs = Some x -> forallb blockless x = true) ->
  open_start d -> open_end d -> moved reg n d [EPath HdThis []] false false a b ->
  fits w -> closed w ->
  doc_ok (pl_penv pl) a -> Forall (regular w) a -> Forall (tame w) a -> doc_writes Loose a s ->
  doc_ok (pl_penv pl) b -> Forall (regular w) b -> doc_writes Loose b s' ->
  (answers pl reg data name s' r <-> answers pl reg data name s r).
Proof. exact (part_moved_once true). Qed.
Print Assumptions C85_once.

(** ** The hypotheses hold, for any data, for a part in an [else] branch of a block in a loop *)
Definition rows_of (l : list item) : list item :=
  [IText (lit "Rows: ");
   IBlock false (Call (HdName (lit "each")) [] [EPath (HdName (lit "rows")) []] []) nt
     [IBlock false (Call (HdName (lit "if")) [] [EPath (HdName (lit "off")) []] []) nt [IText (lit "-")] [(None, nt, l)] nt] [] nt].
Definition letter_in : list item :=
  [IText (lit "<Dear "); show "name"; IText (lit ": ");
   IBlock false (Call (HdName (lit "each")) [] [EPath (HdName (lit "l")) []] []) nt
     [ICall false nt false (Call HdThis [] [] []); IText (lit "/"); ICall false nt false (Call (HdLocal (lit "index")) [] [] []); show "name"] [] nt; IText (lit ".>")].
Definition letter_out : list item := [IText (lit "<"); ICall false nt true (Call (HdName (lit "p")) [] [] []); IText (lit ">")].
Lemma letter_in_is : glue [IText (lit "<")] (glue letter [IText (lit ">")]) = letter_in.
Proof. reflexivity. Qed.
Lemma rows_moved : moved letter_reg (lit "p") letter [] false false (rows_of letter_in) (rows_of letter_out).
Proof.
  refine (mv_body _ _ _ _ _ _ [_] _ _ _ _ _ _ [] _ [] (or_introl _) _); [cbn; tauto|].
  refine (mv_branch _ _ _ _ _ _ [] _ _ _ _ _ [] _ _ _ _ [] _ [] (or_introl _) _); [cbn; tauto|].
  rewrite <- letter_in_is. refine (mv_here _ _ _ _ _ _ [_] [_] _ _ _ _ _ _); try reflexivity.
  - split; [reflexivity|]. intros [|y a] x E; [reflexivity|]. destruct a; discriminate E.
  - split; [reflexivity|]. intros x a E. injection E as _ <-. reflexivity.
Qed.
Lemma rows_in_ok : doc_ok pe0 (rows_of letter_in).
Proof. unfold doc_ok, rows_of, letter_in, show, var. ok_items. Qed.
Lemma rows_out_ok : doc_ok pe0 (rows_of letter_out).
Proof. unfold doc_ok, rows_of, letter_out, show, var. ok_items. Qed.
Lemma rows_regular v l : quiet_docs v -> Forall (regular v) l -> existsb loud l = false -> Forall (regular v) (rows_of l).
Proof.
  intros QD L Q. unfold rows_of. apply Forall_cons; [constructor|]. apply Forall_cons; [|apply Forall_nil].
  apply reg_block; [reflexivity|exact I|intros X; discriminate X|apply Forall_nil| | |apply Forall_nil].
  - intros _. right. split; [cbn [existsb loud orb]; cbn; rewrite Q; reflexivity|]. right. exact QD.
  - apply Forall_cons; [|apply Forall_nil]. apply reg_block; [reflexivity|split; [reflexivity|apply Forall_nil]|intros X; discriminate X|apply Forall_cons; [intros X; discriminate X|apply Forall_nil]|intros X; discriminate X| |].
    + apply Forall_cons; [constructor|apply Forall_nil].
    + apply Forall_cons; [exact L|apply Forall_nil].
Qed.
Example C83_inside_nonvacuous : forall data name r,
  (answers pl0 letter_reg data name (lit "Rows: {{#each rows}}{{#if off}}-{{else}}<{{> p}}>{{/if}}{{/each}}") r
    <-> answers pl0 letter_reg data name (lit "Rows: {{#each rows}}{{#if off}}-{{else}}<Dear {{name}}: {{#each l}}{{this}}/{{@index}}{{name}}{{/each}}.>{{/if}}{{/each}}") r)
  /\ once letter_reg (lit "Rows: {{#each rows}}{{#if off}}-{{else}}<{{> p}}>{{/if}}{{/each}}")
       (JObj [(lit "rows", JArr [JObj [(lit "name", JStr (lit "A")); (lit "l", JArr [JStr (lit "b")])]; JObj [(lit "off", JBool true)]; JObj [(lit "name", JStr (lit "C"))]])])
     = AOk (lit "Rows: <Dear A: b/0A.>-<Dear C: .>").
Proof.
  intros data name r. split; [|vm_compute; reflexivity].
  assert (K1 : doc_ok pe0 letter) by (unfold doc_ok, letter, show, var; ok_items).
  assert (K2 : template_compile pl0 (mkOpts (lit "p") 0 0) (doc_text letter) = AOk (exch_te letter)) by (vm_compute; reflexivity).
  destruct (one_doc (exch_te letter) letter_reg data letter eq_refl eq_refl eq_refl eq_refl eq_refl K2 K1 eq_refl (calm_text (firstn 4 letter) _) (letter_regular _)) as (F & S & C).
  destruct letter_ends as (_ & E2 & E3 & _). set (w := mkWorld pl0 letter_reg data [(lit "p", letter)]) in *.
  assert (QD : quiet_docs w) by (intros q x X; cbn [w w_docs assoc] in X; destruct (streq q (lit "p")); [injection X as <-; reflexivity|discriminate X]).
  apply (C83_inside_once pl0 letter_reg data [(lit "p", letter)] (lit "p") letter (rows_of letter_in) (rows_of letter_out)); try assumption.
  - reflexivity.
  - vm_compute. reflexivity.
  - intros q x Hq X. cbn [assoc] in X. destruct (streq q (lit "p")) eqn:E; [apply streq_eq in E; contradiction|discriminate X].
  - reflexivity.
  - intros q x X. cbn [assoc] in X. destruct (streq q (lit "p")); [|discriminate X]. injection X as <-. reflexivity.
  - exact rows_moved.
  - exact rows_in_ok.
  - apply rows_regular; [exact QD| |reflexivity]. pose proof (letter_regular w) as L. rewrite Forall_forall in L.
    unfold letter_in. repeat (apply Forall_cons; [first [constructor; fail|apply L; cbn; tauto]|]); apply Forall_nil.
  - apply Forall_forall. intros i Hi. apply C65_standard_tame; [exact S|]. unfold rows_of in Hi. cbn [In] in Hi. repeat (destruct Hi as [<-|Hi]; [reflexivity|]). contradiction Hi.
  - exact (doc_canon _ _ _ rows_in_ok).
  - exact rows_out_ok.
  - apply rows_regular; [exact QD| |reflexivity]. unfold letter_out. apply Forall_cons; [constructor|]. apply Forall_cons; [constructor; reflexivity|]. apply Forall_cons; [constructor|apply Forall_nil].
  - exact (doc_canon _ _ _ rows_out_ok).
Qed.

(** ** A part that uses [this], in a loop *)
Definition row : list item := [IText (lit "- "); ICall false nt false (Call HdThis [] [] []); IText (lit ": "); show "name"; IText (lit ".")].
Definition row_reg : registry := set_templates [(lit "p", exch_te row)] reg0.
Definition list_of (l : list item) : list item := [IText (lit "Rows: "); IBlock false (Call (HdName (lit "each")) [] [EPath (HdName (lit "rows")) []] []) nt l [] nt].
Definition row_tag : list item := [ICall false nt true (Call (HdName (lit "p")) [] [EPath HdThis []] [])].
Lemma row_moved : moved row_reg (lit "p") row [EPath HdThis []] false false (list_of row) (list_of row_tag).
Proof.
  refine (mv_body _ _ _ _ _ _ [_] _ _ _ _ _ _ [] _ [] (or_introl _) _); [cbn; tauto|].
  change (moved row_reg (lit "p") row [EPath HdThis []] false false (glue [] (glue row [])) row_tag). refine (mv_here _ _ _ _ _ _ [] [] _ _ _ _ _ _); try reflexivity.
  - split; [reflexivity|]. intros a x E. destruct a; discriminate E.
  - split; [reflexivity|]. intros x a E. discriminate E.
Qed.
Lemma row_ok : doc_ok pe0 row.
Proof. unfold doc_ok, row, show, var. ok_items. Qed.
Lemma list_in_ok : doc_ok pe0 (list_of row).
Proof. unfold doc_ok, list_of, row, show, var. ok_items. Qed.
Lemma list_out_ok : doc_ok pe0 (list_of row_tag).
Proof. unfold doc_ok, list_of, row_tag, show, var. ok_items. Qed.
Lemma list_regular v l : quiet_docs v -> Forall (regular v) l -> existsb loud l = false -> Forall (regular v) (list_of l).
Proof.
  intros QD L Q. unfold list_of. apply Forall_cons; [constructor|]. apply Forall_cons; [|apply Forall_nil].
  apply reg_block; [reflexivity|exact I|intros X; discriminate X|apply Forall_nil| |exact L|apply Forall_nil].
  intros _. right. split; [exact Q|right; exact QD].
Qed.
Lemma row_regular v : Forall (regular v) row.
Proof. unfold row, show, var. repeat (apply Forall_cons; [constructor|]); apply Forall_nil. Qed.
Example C85_nonvacuous : forall data name r,
  (answers pl0 row_reg data name (lit "Rows: {{#each rows}}{{> p this}}{{/each}}") r
    <-> answers pl0 row_reg data name (lit "Rows: {{#each rows}}- {{this}}: {{name}}.{{/each}}") r)
  /\ let rows := JObj [(lit "name", JStr (lit "A")); (lit "rows", JArr [JStr (lit "x"); JBool true])] in
     once row_reg (lit "Rows: {{#each rows}}{{> p this}}{{/each}}") rows = AOk (lit "Rows: - x: A.- true: A.")
     (** without the argument it is the empty object that is shown; and [@index] is not handed over *)
     /\ once row_reg (lit "Rows: {{#each rows}}{{> p}}{{/each}}") rows = AOk (lit "Rows: - Object: A.- Object: A.")
     /\ once (part_reg "{{@index}}") (lit "{{#each rows}}{{@index}}{{/each}}") rows = AOk (lit "01") /\ once (part_reg "{{@index}}") (lit "{{#each rows}}{{> p this}}{{/each}}") rows = AOk [].
Proof.
  intros data name r. split; [|cbv zeta; repeat split; vm_compute; reflexivity].
  assert (K2 : template_compile pl0 (mkOpts (lit "p") 0 0) (doc_text row) = AOk (exch_te row)) by (vm_compute; reflexivity).
  destruct (one_doc (exch_te row) row_reg data row eq_refl eq_refl eq_refl eq_refl eq_refl K2 row_ok eq_refl (calm_text (firstn 4 row) _) (row_regular _)) as (F & S & C).
  set (w := mkWorld pl0 row_reg data [(lit "p", row)]) in *.
  assert (QD : quiet_docs w) by (intros q x X; cbn [w w_docs assoc] in X; destruct (streq q (lit "p")); [injection X as <-; reflexivity|discriminate X]).
  apply (C85_once pl0 row_reg data [(lit "p", row)] (lit "p") row (list_of row) (list_of row_tag)); try assumption.
  - reflexivity.
  - vm_compute. reflexivity.
  - intros q x Hq X. cbn [assoc] in X. destruct (streq q (lit "p")) eqn:E; [apply streq_eq in E; contradiction|discriminate X].
  - reflexivity.
  - intros q x X. cbn [assoc] in X. destruct (streq q (lit "p")); [|discriminate X]. injection X as <-. reflexivity.
  - split; [reflexivity|]. intros x a E. injection E as _ <-. reflexivity.
  - split; [reflexivity|]. intros [|y [|y1 [|y2 [|y3 [|y4 a]]]]] x E; try discriminate E; [injection E as <- <- <- <- _; reflexivity|]. injection E as _ _ _ _ _ E. destruct a; discriminate E.
  - exact row_moved.
  - exact list_in_ok.
  - apply list_regular; [exact QD|apply row_regular|reflexivity].
  - apply Forall_forall. intros i Hi. apply C65_standard_tame; [exact S|]. unfold list_of in Hi. cbn [In] in Hi. repeat (destruct Hi as [<-|Hi]; [reflexivity|]). contradiction Hi.
  - exact (doc_canon _ _ _ list_in_ok).
  - exact list_out_ok.
  - apply list_regular; [exact QD| |reflexivity]. unfold row_tag. apply Forall_cons; [constructor; reflexivity|apply Forall_nil].
  - exact (doc_canon _ _ _ list_out_ok).
Qed.
