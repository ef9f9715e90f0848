(** * Props_Own: block helpers of one's own that render their block (C80) *)
From Coq Require Import Lia String.
From Verif Require Import Str Lexer Json Ast Parser Render Helpers Registry Tests StrFacts Spec_Lexer Spec_Values Spec_Helpers Spec_Blocks Spec_Calls Spec_Source Spec_Sem Spec_Fail
  Props_Source SynLex SemFacts SemItems Props_Sem Props_Fail Spec_Total TotalFacts OwnFacts.
Open Scope nat_scope. Open Scope list_scope.

(** A block anywhere in a template, given to a helper (or the handler for blocks) that takes steps: what the template writes is the text before, then what each step
    writes in its turn - the texts of the helper, the content of the block each time it is rendered, in the scopes of that moment, the selected branch - then the text after. *)
Theorem C80_own_block : forall w pb pb1 pb' d1 d2 s1 si s2 n xs hs m body bs m' name f prop vs pairs ps l v out o1 o2,
  let i := IBlock false (Call (HdName n) [] xs hs) m body bs m' in
  setting w d1 i d2 s1 s2 -> item_writes Loose i si ->
  items_out w [] [] None pb false (tl_before m) d1 o1 -> items_out w [] [] pb1 pb' (tl_after m') false d2 o2 ->
  block_by w [] n name f prop -> args_value w [] [SBlock name] xs vs -> hash_value w [] [SBlock name] hs pairs -> map_of ps pairs ->
  performs w [] f name vs ps prop l v ->
  renderings l <= 1 \/ tl_after m = true \/ (quiet_body w body /\ Forall (fun b => quiet_body w (br_body b)) bs) ->
  steps_out w [] [SBlock name] pb pb1 m body bs m' [] l out ->
  renders (w_plat w) (w_reg w) (w_data w) (s1 ++ si ++ s2) (o1 ++ out ++ o2).
Proof.
  intros w pb pb1 pb' d1 d2 s1 si s2 n xs hs m body bs m' name f prop vs pairs ps l v out o1 o2 i Hs Hi H1 H2 Hb Hv Hh Hm Hp Hq Ho.
  apply (among w pb pb1 pb' d1 i d2); try assumption. eapply io_own; try eassumption. cbn. lia.
Qed.
(** a helper that writes something around its block *)
Theorem C80_wrap : forall w pb pb1 pb' d1 d2 s1 si s2 n xs hs m body bs m' name f prop vs pairs ps a ea b eb v o o1 o2,
  let i := IBlock false (Call (HdName n) [] xs hs) m body bs m' in let text (x : str) (e : bool) := if e then written (rg_escape (w_reg w)) x else x in
  setting w d1 i d2 s1 s2 -> item_writes Loose i si ->
  items_out w [] [] None pb false (tl_before m) d1 o1 -> items_out w [] [] pb1 pb' (tl_after m') false d2 o2 ->
  block_by w [] n name f prop -> args_value w [] [SBlock name] xs vs -> hash_value w [] [SBlock name] hs pairs -> map_of ps pairs ->
  performs w [] f name vs ps prop [Say a ea; Show; Say b eb] v -> solid a -> solid b ->
  items_out w [] [SBlock name] pb pb1 (tl_after m) (tl_before (next_tag bs m')) body o ->
  renders (w_plat w) (w_reg w) (w_data w) (s1 ++ si ++ s2) (o1 ++ (text a ea ++ o ++ text b eb) ++ o2).
Proof.
  intros w pb pb1 pb' d1 d2 s1 si s2 n xs hs m body bs m' name f prop vs pairs ps a ea b eb v o o1 o2 i text Hs Hi H1 H2 Hb Hv Hh Hm Hp Ha Hbb Ho.
  eapply C80_own_block; try eassumption; [left; cbn; lia|]. apply steps_say; [exact Ha|]. eapply steps_show; [exact Ho|]. rewrite <- (app_nil_r (text b eb)). apply steps_say; [exact Hbb|]. apply steps_end.
Qed.
(** a helper that renders its block once in each of some scopes writes what a loop over them writes *)
Definition loop_steps (its : list scope) : list hstep := flat_map (fun sc => [Enter sc; Show; Leave]) its.
Lemma loop_out w act m body bs m' its : forall pb pb1 out, rounds_out w its [] act pb pb1 (tl_after m) (tl_before (next_tag bs m')) body out -> steps_out w [] act pb pb1 m body bs m' [] (loop_steps its) out.
Proof.
  induction its as [|sc its IH]; intros pb pb1 out H; inversion H; subst; cbn [loop_steps flat_map app]; [apply steps_end|]. apply steps_enter. eapply steps_show; [eassumption|]. apply steps_leave. apply IH. assumption.
Qed.
Theorem C80_loop : forall w pb pb1 pb' d1 d2 s1 si s2 n xs hs m body bs m' name f prop vs pairs ps its v out o1 o2,
  let i := IBlock false (Call (HdName n) [] xs hs) m body bs m' in
  setting w d1 i d2 s1 s2 -> item_writes Loose i si ->
  items_out w [] [] None pb false (tl_before m) d1 o1 -> items_out w [] [] pb1 pb' (tl_after m') false d2 o2 ->
  block_by w [] n name f prop -> args_value w [] [SBlock name] xs vs -> hash_value w [] [SBlock name] hs pairs -> map_of ps pairs ->
  performs w [] f name vs ps prop (loop_steps its) v ->
  tl_after m = true \/ (quiet_body w body /\ Forall (fun b => quiet_body w (br_body b)) bs) ->
  rounds_out w its [] [SBlock name] pb pb1 (tl_after m) (tl_before (next_tag bs m')) body out ->
  renders (w_plat w) (w_reg w) (w_data w) (s1 ++ si ++ s2) (o1 ++ out ++ o2).
Proof.
  intros w pb pb1 pb' d1 d2 s1 si s2 n xs hs m body bs m' name f prop vs pairs ps its v out o1 o2 i Hs Hi H1 H2 Hb Hv Hh Hm Hp Hq Ho.
  eapply C80_own_block; try eassumption; [right; exact Hq|]. apply loop_out. exact Ho.
Qed.
(** a helper that shows its block or, otherwise, the selected branch *)
Theorem C80_choose : forall w pb pb1 pb' d1 d2 s1 si s2 n xs hs m body bs m' name f prop vs pairs ps (b : bool) r v out o1 o2,
  let i := IBlock false (Call (HdName n) [] xs hs) m body bs m' in
  setting w d1 i d2 s1 s2 -> item_writes Loose i si ->
  items_out w [] [] None pb false (tl_before m) d1 o1 -> items_out w [] [] pb1 pb' (tl_after m') false d2 o2 ->
  block_by w [] n name f prop -> args_value w [] [SBlock name] xs vs -> hash_value w [] [SBlock name] hs pairs -> map_of ps pairs ->
  performs w [] f name vs ps prop [if b then Show else Otherwise] v ->
  (if b then items_out w [] [SBlock name] pb pb1 (tl_after m) (tl_before (next_tag bs m')) body out
   else else_branch w [] [SBlock name] bs r /\ else_out w [] [SBlock name] pb pb1 m' r out) ->
  renders (w_plat w) (w_reg w) (w_data w) (s1 ++ si ++ s2) (o1 ++ out ++ o2).
Proof.
  intros w pb pb1 pb' d1 d2 s1 si s2 n xs hs m body bs m' name f prop vs pairs ps b r v out o1 o2 i Hs Hi H1 H2 Hb Hv Hh Hm Hp Ho.
  eapply C80_own_block; try eassumption; [left; destruct b; cbn; lia|]. rewrite <- (app_nil_r out). destruct b; [eapply steps_show; [exact Ho|apply steps_end]|]. destruct Ho as (Hr & Ho). eapply steps_else; [exact Hr|exact Ho|apply steps_end].
Qed.
(** an error of a step, or in what a step renders, ends rendering with that error; what was written before it stays written *)
Theorem C80_fails : forall w pb d1 d2 s1 si s2 n xs hs m body bs m' name f prop vs pairs ps l v out err o1 tn,
  let i := IBlock false (Call (HdName n) [] xs hs) m body bs m' in
  setting w d1 i d2 s1 s2 -> item_writes Loose i si -> items_out w [] [] None pb false (tl_before m) d1 o1 ->
  block_by w [] n name f prop -> args_value w [] [SBlock name] xs vs -> hash_value w [] [SBlock name] hs pairs -> map_of ps pairs ->
  performs w [] f name vs ps prop l v ->
  renderings l <= 1 \/ tl_after m = true \/ (quiet_body w body /\ Forall (fun b => quiet_body w (br_body b)) bs) ->
  steps_err w tn [SBlock name] pb m body bs m' [] l out (Fails err) ->
  fails_with (w_plat w) (w_reg w) (w_data w) tn (s1 ++ si ++ s2) (o1 ++ out) err.
Proof.
  intros w pb d1 d2 s1 si s2 n xs hs m body bs m' name f prop vs pairs ps l v out err o1 tn i Hs Hi H1 Hb Hv Hh Hm Hp Hq Ho.
  eapply C64_in_place; [exact Hs|exact Hi|exact H1|]. eapply ie_own; try eassumption. cbn. lia.
Qed.
(** a helper that only writes texts, described in both ways: the descriptions agree *)
Theorem C80_agrees : forall w scs f n vs ps prop l v act pb pb' m body bs m' out s e ws u,
  acts w scs f n vs ps None prop true (writes ws u) -> performs w scs f n vs ps prop l v ->
  steps_out w scs act pb pb' m body bs m' scs l out -> helper_out w s e (writes ws u) out /\ pb' = pb.
Proof.
  intros w scs f n vs ps prop l v act pb pb' m body bs m' out s e ws u Ha Hp Ho.
  destruct (written_total w s e ws u) as (o & Hh). set (en := mkEnv (w_plat w) (w_reg w) [] (w_data w) string_writer). assert (Hw : forall h s, exists n, en_write en h s = WOk n) by (intros; eexists; reflexivity).
  assert (Hs : at_state scs [] (here scs s e)) by (repeat split).
  pose proof (acts_deaf w _ _ _ _ _ _ _ _ Ha Hs) as E1. rewrite (performs_deaf w _ _ _ _ _ _ _ _ _ Hp Hs) in E1.
  destruct (out_run w en eq_refl Hw s e _ o scs [] _ deaf Hh Hs eq_refl) as (v2 & st2 & R2 & (_ & _ & M2) & _). fold en in E1. rewrite R2 in E1.
  destruct (steps_deaf w _ _ _ _ _ _ _ _ _ _ _ v Ho _ Hs) as [X|(-> & st' & X1 & X2)]; [fold en in X; congruence|]. fold en in X1. rewrite X1 in E1. injection E1 as _ <-. rewrite X2 in M2. cbn in M2. subst o. split; [exact Hh|reflexivity].
Qed.

(** ** Concrete helpers *)
Definition wrap_helper : helper := fun _ t => match t with Some t => in_steps t [Say (lit "<b>") false; Show; Say (lit "&") true] None | None => HRet None end.
Definition over_helper : helper := fun ctx t => match t with Some t => in_steps t (loop_steps (map (fun v => mkScope (Some v) []) (hc_args ctx))) None | None => HRet None end.
Definition never_helper : helper := fun _ t => match t with Some t => in_steps t [Otherwise] None | None => HRet None end.
Definition give_up : helper := fun ctx t => match t with Some t => in_steps t [Show; Halt (EHelperCycle (lit "x"))] None | None => HRet None end.
Definition own_reg : registry := set_helpers [(lit "wrap", wrap_helper); (lit "over", over_helper); (lit "never", never_helper); (lit "giveup", give_up)] reg0.
Definition own_data : json := JObj [(lit "x", JStr (lit "<")); (lit "y", JBool true)].
Definition own_world : world := mkWorld pl0 own_reg own_data [].
(** [{{#over x y}}{{#wrap}}{{this}}{{/wrap}},{{/over}}], [{{#never}}a{{else}}{{x}}{{/never}}] and [{{#giveup}}{{x}}{{/giveup}}] *)
Definition own_inner : item := IBlock false (Call (HdName (lit "wrap")) [] [] []) nt [ICall false nt false (Call HdThis [] [] [])] [] nt.
Definition own_args : list expr := [EPath (HdName (lit "x")) []; EPath (HdName (lit "y")) []].
Definition own_body : list item := [own_inner; IText (lit ",")].
Definition own_item : item := IBlock false (Call (HdName (lit "over")) [] own_args []) nt own_body [] nt.
Definition own_never : item := IBlock false (Call (HdName (lit "never")) [] [] []) nt [IText (lit "a")] [(None, nt, [show "x"])] nt.
Definition own_stop : item := IBlock false (Call (HdName (lit "giveup")) [] [] []) nt [show "x"] [] nt.
Definition own_its : list scope := [mkScope (Some (JStr (lit "<"))) []; mkScope (Some (JBool true)) []].
Lemma own_by n f : assoc n (rg_helpers own_reg) = Some f -> ~ In n block_helpers -> block_by own_world [] n n f None.
Proof. intros H N. apply by_helper; [exact H|]. intros (X & _). contradiction. Qed.
Lemma solid_nows x : forallb (fun c => negb (is_ws c)) x = true -> solid x.
Proof.
  rewrite forallb_forall. intros H. split; intros c r -> X; apply white_ws in X.
  - specialize (H c ltac:(left; reflexivity)). now rewrite X in H.
  - specialize (H c ltac:(apply in_or_app; right; left; reflexivity)). now rewrite X in H.
Qed.
Lemma own_regular : Forall (regular own_world) [own_item; own_never; own_stop].
Proof.
  unfold own_item, own_never, own_stop, own_body, own_inner, show, var.
  assert (N : forall c m m' body, tl_after m = false -> tl_after m' = false -> call_name c <> lit "each" -> Forall (regular own_world) body -> regular own_world (IBlock false c m body [] m')).
  { intros c m m' body H1 H2 H3 H4. apply reg_block; [exact H2|exact I|intros X; congruence|constructor|intros X; congruence|exact H4|constructor]. }
  apply Forall_cons; [|apply Forall_cons; [|apply Forall_cons; [|apply Forall_nil]]].
  - apply N; [reflexivity|reflexivity|intros X; discriminate X|]. apply Forall_cons; [|repeat constructor]. apply N; [reflexivity|reflexivity|intros X; discriminate X|repeat constructor].
  - apply reg_block; [reflexivity|split; [reflexivity|constructor]|intros X; discriminate X|constructor; [intros X; discriminate X|constructor]|intros X; discriminate X|repeat constructor|repeat constructor].
  - apply N; [reflexivity|reflexivity|intros X; discriminate X|repeat constructor].
Qed.
Lemma own_shown sc t x : assoc (lit "wrap") (rg_helpers own_reg) = Some wrap_helper -> sc = mkScope (Some t) [] -> shown (pl_fstr pl0) t x ->
  items_out own_world [sc] [SBlock (lit "over")] None None false false own_body (((lit "<b>" ++ (written (rg_escape reg0) x ++ []) ++ lit "&amp;" ++ [])) ++ lit "," ++ []).
Proof.
  intros _ -> Hx. eapply out_cons; [|eapply out_cons; [constructor; apply stripped_none|apply out_nil]].
  eapply (io_own _ _ _ _ _ _ _ _ _ _ _ _ _ _ (lit "wrap") wrap_helper None [] [] []);
    [apply by_helper; [reflexivity|intros (X & _); cbn in X; repeat (destruct X as [X|X]; [discriminate X|]); contradiction]|cbn; lia|apply as_nil|apply hv_nil|split; constructor|intros ctx u E1 E2 E3 E4 E5 K en st _; reflexivity|left; cbn; lia|].
  apply (steps_say own_world _ _ _ _ _ _ _ _ _ (lit "<b>") false); [apply solid_nows; reflexivity|]. eapply steps_show.
  - eapply out_cons; [|apply out_nil]. eapply (io_value own_world _ _ _ _ _ false); [apply cv_variable; [notvar|see]|exact Hx|apply stripped_none].
  - change (lit "&amp;") with (written (rg_escape (w_reg own_world)) (lit "&")). apply (steps_say own_world _ _ _ _ _ _ _ _ _ (lit "&") true); [apply solid_nows; reflexivity|apply steps_end].
Qed.
(** the hypotheses hold, and the library writes this *)
Example C80_nonvacuous :
  setting own_world [IText (lit "a ")] own_item [show "x"] (lit "a ") (lit "{{x}}")
  /\ block_by own_world [] (lit "over") (lit "over") over_helper None
  /\ args_value own_world [] [SBlock (lit "over")] own_args [JStr (lit "<"); JBool true]
  /\ performs own_world [] over_helper (lit "over") [JStr (lit "<"); JBool true] [] None (loop_steps own_its) None
  /\ (quiet_body own_world own_body /\ Forall (fun b : branch => quiet_body own_world (br_body b)) [])
  /\ rounds_out own_world own_its [] [SBlock (lit "over")] None None false false own_body (lit "<b>&lt;&amp;,<b>true&amp;,")
  /\ item_text own_item = lit "{{#over x y}}{{#wrap}}{{this}}{{/wrap}},{{/over}}"
  /\ once own_reg (lit "a " ++ item_text own_item ++ lit "{{x}}") own_data = AOk (lit "a <b>&lt;&amp;,<b>true&amp;,&lt;").
Proof.
  split.
  { apply (setting_canon own_world [IText (lit "a ")] own_item [show "x"]); [apply (alone_fits pl0 own_reg own_data); intros src c; apply Permutation_refl| |].
    - unfold doc_ok, own_item, own_args, own_body, own_inner, show, var. cbn [app]. ok_items.
    - cbn [app]. apply Forall_cons; [constructor|]. apply Forall_cons; [exact (Forall_inv own_regular)|]. repeat constructor. }
  split; [apply own_by; [reflexivity|intros X; cbn in X; repeat (destruct X as [X|X]; [discriminate X|]); contradiction]|].
  split; [unfold own_args; apply as_cons; [apply av_path; see|apply as_cons; [apply av_path; see|apply as_nil]]|].
  split; [intros ctx t E1 E2 E3 E4 E5 K en st _; unfold over_helper; rewrite E2; reflexivity|].
  split; [split; [split; [reflexivity|left; reflexivity]|constructor]|].
  split; [|split; [reflexivity|vm_compute; reflexivity]].
  change (lit "<b>&lt;&amp;,<b>true&amp;,") with ((((lit "<b>" ++ (written (rg_escape reg0) (lit "<") ++ []) ++ lit "&amp;" ++ [])) ++ lit "," ++ []) ++ (((lit "<b>" ++ (written (rg_escape reg0) (lit "true") ++ []) ++ lit "&amp;" ++ [])) ++ lit "," ++ []) ++ []).
  eapply round_next; [eapply own_shown; [reflexivity|reflexivity|constructor]|]. eapply round_next; [eapply own_shown; [reflexivity|reflexivity|constructor]|apply round_none].
Qed.
Example C80_choose_nonvacuous :
  performs own_world [] never_helper (lit "never") [] [] None [Otherwise] None
  /\ else_branch own_world [] [SBlock (lit "never")] [(None, nt, [show "x"])] (Some ((None, nt, [show "x"]), []))
  /\ item_text own_never = lit "{{#never}}a{{else}}{{x}}{{/never}}"
  /\ once own_reg (item_text own_never) own_data = AOk (lit "&lt;").
Proof.
  split; [intros ctx t E1 E2 E3 E4 E5 K en st _; reflexivity|]. split; [|split; [reflexivity|vm_compute; reflexivity]].
  apply (else_plain own_world [] [SBlock (lit "never")] [(None, nt, [show "x"])] [] (None, nt, [show "x"]) []); [reflexivity|constructor; [intros c X; discriminate X|constructor]|reflexivity|intros x []].
Qed.
Example C80_fails_nonvacuous :
  performs own_world [] give_up (lit "giveup") [] [] None [Show; Halt (EHelperCycle (lit "x"))] None
  /\ steps_err own_world (lit "t") [SBlock (lit "giveup")] None nt [show "x"] [] nt [] [Show; Halt (EHelperCycle (lit "x"))] (lit "&lt;") (Fails (EHelperCycle (lit "x")))
  /\ once own_reg (item_text own_stop) own_data = AErr (XRender (EHelperCycle (lit "x"))).
Proof.
  split; [intros ctx t E1 E2 E3 E4 E5 K en st _; reflexivity|]. split; [|vm_compute; reflexivity].
  change (lit "&lt;") with ((written (rg_escape reg0) (lit "<") ++ []) ++ []). eapply (fall_shown own_world); [|apply fall_stop].
  eapply out_cons; [|apply out_nil]. eapply (io_value own_world _ _ _ _ _ false); [apply cv_variable; [notvar|see]|constructor|apply stripped_none].
Qed.
(** why the texts of the helper must not begin or end with white space: the [~] of the closing tag of the block strips what the helper writes after it *)
Definition pad_helper : helper := fun _ t => match t with Some t => in_steps t [Show; Say (lit " end ") false] None | None => HRet None end.
Theorem C80_stripped_refuted : let reg := set_helpers [(lit "pad", pad_helper)] reg0 in
  once reg (lit "{{#pad}}x{{/pad}}|") JNull = AOk (lit "x end |") /\ once reg (lit "{{#pad}}x{{~/pad}}|") JNull = AOk (lit "x end|").
Proof. split; vm_compute; reflexivity. Qed.
