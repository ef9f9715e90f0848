(** * FailFacts: rendering fails as Spec_Fail says. *)
From Coq Require Import Lia String.
From Verif Require Import Str Lexer Json Ast ErrInfo Parser Render Helpers Registry StrFacts SynPath Spec_Lexer Spec_Values ValueFacts Spec_Helpers LookupFacts
  Spec_Render Spec_Blocks Spec_Calls CycleFacts HashFacts Props_Values Props_Blocks Spec_Source SynBlock Spec_Sem SemFacts SemItems Spec_Fail.
Open Scope nat_scope. Open Scope list_scope.

(** the result of a run that stops *)
Definition stopped {A} (s : stop) (st : rst) : rres A := match s with Fails e => RErr e st | Panics => RPanic PanUnwrap end.
Lemma bind_err {A B} (m : M A) (f : A -> M B) st e st' : m st = stopped e st' -> bind m f st = stopped e st'.
Proof. intros H. unfold bind. rewrite H. destruct e; reflexivity. Qed.
Lemma halt_run K en e st : run K en (halt e) st = stopped e st.
Proof. destruct e; reflexivity. Qed.

Section Fail.
Variables (w : world) (en : env).
Hypothesis Ep : en_plat en = w_plat w.
Hypothesis Er : en_reg en = w_reg w.
Hypothesis Ed : en_root en = w_data w.
Hypothesis Hf : fits w.
Notation pe := (pl_penv (w_plat w)).

(** ** Values: a failure writes nothing *)
Definition same_out (st st' : rst) : Prop := r_out st' = r_out st.
Definition arg_bad (act : list site) (scs : list scope) (src : str) (p : param) (err : stop) : Prop :=
  exists n, forall k st, n <= k -> at_state scs act st -> exists st', eval_param (tie k) en src p st = stopped err st' /\ same_out st st'.
Definition args_bad (act : list site) (scs : list scope) (src : str) (ps : list param) (err : stop) : Prop :=
  exists n, forall k st i, n <= k -> at_state scs act st -> exists st', arguments (tie k) en src i ps st = stopped err st' /\ same_out st st'.
Definition hash_bad (act : list site) (scs : list scope) (src : str) (c : call) (err : stop) : Prop :=
  exists n, forall k st, n <= k -> at_state scs act st -> exists st', hash (tie k) en src c st = stopped err st' /\ same_out st st'.
Definition call_bad (act : list site) (scs : list scope) (src : str) (c : call) (err : stop) : Prop :=
  exists n, forall k st, n <= k -> at_state scs act st -> exists st', call_ (tie k) en src c st = stopped err st' /\ same_out st st'.
(** a helper that is run for the call [c] *)
Definition invoke_bad (act : list site) (scs : list scope) (blk : bool) (name : str) (f : helper) (text : option str) (prop : option (str * json)) (src : str) (c : call) (err : stop) : Prop :=
  forall tg content, target_is w tg f -> (content <> None <-> blk = true) ->
  exists n, forall k st, n <= k -> at_state scs act st -> exists st', invoke (tie k) en src name tg c content text prop st = stopped err st' /\ same_out st st'.

(** one pair of the hash fails, the others have values *)
Lemma hash_go_bad scs act src k bad err : (forall st, at_state scs act st -> exists st', eval_param (tie k) en src bad st = stopped err st' /\ same_out st st') ->
  forall pre key post st acc, at_state scs act st ->
  Forall (fun kp => forall st, at_state scs act st -> exists v m, eval_param (tie k) en src (snd kp) st = ROk (v, m) st) pre ->
  exists st', hash_go (tie k) en src (pre ++ (key, bad) :: post) acc st = stopped err st' /\ same_out st st'.
Proof.
  intros Hb. induction pre as [|[a p] pre IH]; intros key post st acc Hs Hp; cbn [app hash_go].
  - destruct (Hb st Hs) as (st' & E & O). exists st'. rewrite (bind_err _ _ _ _ _ E). auto.
  - inversion Hp as [|x l H1 H2]; subst. destruct (H1 st Hs) as (v & m & E). cbn [snd] in E. rewrite (bind_ok _ _ _ _ _ E). cbn [fst].
    destruct (IH key post st (obj_insert a v acc) Hs H2) as (st' & E' & O). exists st'. rewrite (bind_err _ _ _ _ _ E'). auto.
Qed.
Lemma hash_runs_each act scs src ps pairs : hash_runs en act scs src ps pairs ->
  exists n, forall k, n <= k -> Forall (fun kp => forall st, at_state scs act st -> exists v m, eval_param (tie k) en src (snd kp) st = ROk (v, m) st) ps.
Proof.
  intros (n & H). exists n. intros k Hk. specialize (H k Hk). induction H as [|[a p] [b v] ps pairs [_ Hv] H IH]; constructor; [|exact IH].
  intros st Hs. destruct (Hv st Hs) as (m & E). exists v, m. exact E.
Qed.

Scheme arg_fails_mut := Minimality for arg_fails Sort Prop
  with args_fail_mut := Minimality for args_fail Sort Prop
  with hash_fails_mut := Minimality for hash_fails Sort Prop
  with helper_call_fails_mut := Minimality for helper_call_fails Sort Prop
  with call_fails_mut := Minimality for call_fails Sort Prop.
Combined Scheme fails_mut from arg_fails_mut, args_fail_mut, hash_fails_mut, helper_call_fails_mut, call_fails_mut.

Notation params_are src := (Forall2 (fun kp kv => fst kp = fst kv /\ param_is Loose pe src (snd kp) (snd kv))).
Lemma invoke_step k src name tg c content text prop st blk scs act : (content <> None <-> blk = true) -> at_state scs act st -> count_site (site_of blk name) act < 32 ->
  invoke (tie k) en src name tg c content text prop st =
  (let* a := arguments (tie k) en src 0 (c_args c) in
   let* h := hash (tie k) en src c in
   let ctx := mkHctx c src name (fst a) (fst h) text prop (snd a ++ snd h) in
   let* st := get in
   let* v := match tg with
             | ByName n => match assoc n (r_local st) with Some f => run (tie k) en (f ctx content)
                           | None => match assoc n (rg_helpers (en_reg en)) with Some f => run (tie k) en (f ctx content) | None => ret None end end
             | ByRef f => run (tie k) en (f ctx content)
             end in
   upd pop_stack ;; ret v) (up_stack (site_of blk name :: r_stack st) st).
Proof.
  intros Hb (_ & _ & Hs) Hc. unfold invoke. cbv zeta.
  assert (Es : match content with Some _ => SBlock name | None => SHelper name end = site_of blk name).
  { destruct content, blk; try reflexivity; exfalso; [destruct Hb as [X _]; discriminate X; discriminate|destruct Hb as [_ X]; apply X; reflexivity]. }
  rewrite Es, bind_get. replace (stack_max <=? _) with false by (symmetry; apply Nat.leb_gt; rewrite Hs; exact Hc). rewrite bind_upd. reflexivity.
Qed.
Theorem fails_run nm scs : en_name en = nm ->
  (forall act x err, arg_fails w nm scs act x err -> forall src p, param_is Loose pe src p x -> arg_bad act scs src p err)
  /\ (forall act xs err, args_fail w nm scs act xs err -> forall src ps, Forall2 (param_is Loose pe src) ps xs -> args_bad act scs src ps err)
  /\ (forall act hs err, hash_fails w nm scs act hs err -> forall src c, params_are src (c_params c) hs -> hash_bad act scs src c err)
  /\ (forall act blk name f xs hs text prop err, helper_call_fails w nm scs act blk name f xs hs text prop err -> forall src c,
        Forall2 (param_is Loose pe src) (c_args c) xs -> params_are src (c_params c) hs -> invoke_bad act scs blk name f text prop src c err)
  /\ (forall act x err, call_fails w nm scs act x err -> forall src pt cd c, call_is Loose pe src pt cd c x -> call_bad act scs src c err).
Proof.
  intros Hnm. apply (fails_mut w nm scs (fun act x err => forall src p, param_is Loose pe src p x -> arg_bad act scs src p err)
    (fun act xs err => forall src ps, Forall2 (param_is Loose pe src) ps xs -> args_bad act scs src ps err)
    (fun act hs err => forall src c, params_are src (c_params c) hs -> hash_bad act scs src c err)
    (fun act blk name f xs hs text prop err => forall src c,
        Forall2 (param_is Loose pe src) (c_args c) xs -> params_are src (c_params c) hs -> invoke_bad act scs blk name f text prop src c err)
    (fun act x err => forall src pt cd c, call_is Loose pe src pt cd c x -> call_bad act scs src c err)).
  - intros act c err _ IH src p H. inversion H as [| | | | | |c0 x0 u0 H2 H3]; subst. destruct (IH _ _ _ _ H2) as (n & Hn). exists (S n). intros k st Hk Hs. destruct k as [|k]; [lia|].
    destruct (Hn k st ltac:(lia) Hs) as (st' & E & O). exists st'. split; [|exact O]. cbn [eval_param]. apply bind_err. cbn [tie k_stmt]. unfold stmt_.
    replace (c_partial c0) with false by (inversion H2; reflexivity). exact E.
  - intros act x xs err _ IH src ps H. inversion H as [|p0 x0 ps0 xs0 H2 H4]; subst. destruct (IH _ _ H2) as (n & Hn). exists n. intros k st i Hk Hs. destruct (Hn k st Hk Hs) as (st' & E & O).
    exists st'. split; [|exact O]. cbn [arguments]. apply bind_err. exact E.
  - intros act x xs v err Hv _ IH src ps H. inversion H as [|p0 x0 ps0 xs0 H2 H4]; subst. destruct (values_run w en Ep Er Ed Hf scs act) as (V & _). destruct (V _ _ Hv _ _ H2) as (n1 & H1).
    destruct (IH _ _ H4) as (n2 & H3). exists (n1 + n2). intros k st i Hk Hs. destruct (H1 k st ltac:(lia) Hs) as (m & E). destruct (H3 k st (S i) ltac:(lia) Hs) as (st' & E' & O).
    exists st'. split; [|exact O]. cbn [arguments]. rewrite (bind_ok _ _ _ _ _ E). apply bind_err. exact E'.
  - intros act pre key x post pairs pairs' err Hp _ IH Hp' src c H. destruct (values_run w en Ep Er Ed Hf scs act) as (_ & _ & V & _).
    apply Forall2_app_inv_r in H. destruct H as (l1 & l2 & F1 & F2 & Ec). inversion F2 as [|[key' q] ? l3 ? [Ek Hq] F3]; subst. cbn [fst snd] in *. subst key'.
    destruct (hash_runs_each _ _ _ _ _ (V _ _ Hp _ _ F1)) as (n1 & H1). destruct (hash_runs_each _ _ _ _ _ (V _ _ Hp' _ _ F3)) as (n2 & H2). destruct (IH _ _ Hq) as (n3 & H3).
    exists (n1 + n2 + n3). intros k st Hk Hs. specialize (H1 k ltac:(lia)). specialize (H2 k ltac:(lia)). unfold hash. rewrite Ep.
    pose proof (fit_order w Hf src c) as P. rewrite Ec in P. assert (In (key, q) (pl_order (w_plat w) src c)) as Hin by (eapply Permutation_in; [apply Permutation_sym; exact P|apply in_or_app; right; left; reflexivity]).
    apply in_split in Hin. destruct Hin as (a & b & Eo). rewrite Eo in *. apply Permutation_sym, Permutation_app_inv in P. apply (hash_go_bad scs act src k q err); [intros s0 H0; apply (H3 k); [lia|exact H0]|exact Hs|].
    rewrite Forall_forall in *. intros y Hy. assert (In y (l1 ++ l3)) as Hi by (eapply Permutation_in; [apply Permutation_sym; exact P|apply in_or_app; left; exact Hy]).
    apply in_app_iff in Hi. destruct Hi; auto.
  - intros act blk name f xs hs text prop Hc src c Ha Hh tg content Htg Hb. exists 0. intros k st _ (_ & _ & Hs). exists st. split; [|reflexivity]. unfold invoke. cbv zeta.
    assert (Es : match content with Some _ => SBlock name | None => SHelper name end = site_of blk name).
    { destruct content, blk; try reflexivity; exfalso; [destruct Hb as [X _]; discriminate X; discriminate|destruct Hb as [_ X]; apply X; reflexivity]. }
    rewrite Es, bind_get. replace (stack_max <=? _) with true by (symmetry; apply Nat.leb_le; rewrite Hs; exact Hc). reflexivity.
  - intros act blk name f xs hs text prop err Hc _ IH src c Ha Hh tg content Htg Hb. destruct (IH _ _ Ha) as (n & Hn). exists n. intros k st Hk Hs.
    rewrite (invoke_step k src name tg c content text prop st blk scs act Hb Hs Hc). destruct (Hn k _ 0 Hk (at_push _ _ _ (site_of blk name) Hs)) as (st' & E & O). exists st'. split; [|exact O].
    apply bind_err. exact E.
  - intros act blk name f xs hs text prop vs err Hc Hvs _ IH src c Ha Hh tg content Htg Hb. destruct (values_run w en Ep Er Ed Hf scs (site_of blk name :: act)) as (_ & V & _).
    destruct (V _ _ Hvs _ _ Ha) as (n1 & H1). destruct (IH _ _ Hh) as (n & Hn). exists (n1 + n). intros k st Hk Hs. pose proof (at_push _ _ _ (site_of blk name) Hs) as Hs'.
    rewrite (invoke_step k src name tg c content text prop st blk scs act Hb Hs Hc). destruct (H1 k _ 0 ltac:(lia) Hs') as (m & E1). destruct (Hn k _ ltac:(lia) Hs') as (st' & E & O). exists st'. split; [|exact O].
    rewrite (bind_ok _ _ _ _ _ E1). apply bind_err. exact E.
  - intros act blk name f xs hs text prop err (Hc & vs & pairs & ps & Hvs & Hps & Hm & Hfl) src c Ha Hh tg content Htg Hb. destruct (values_run w en Ep Er Ed Hf scs (site_of blk name :: act)) as (_ & V & VH & _).
    assert (Es : site_of blk name = match content with Some _ => SBlock name | None => SHelper name end).
    { destruct content, blk; try reflexivity; exfalso; [destruct Hb as [X _]; discriminate X; discriminate|destruct Hb as [_ X]; apply X; reflexivity]. }
    destruct (invoke_runs w en Ep Er Hf scs act src name tg f c content text prop vs pairs ps (site_of blk name) Es Htg Hc (V _ _ Hvs _ _ Ha) (VH _ _ Hps _ _ Hh) Hm) as (n & Hn).
    exists n. intros k st Hk Hs. destruct (Hn k st Hk Hs) as (ctx & (_ & _ & X1 & X2 & X3 & X4 & X5) & E). eexists. rewrite E. split; [apply bind_err; rewrite (Hfl ctx content X1 X2 X3 X4 X5 Hb (tie k) en _ (sees_at w en Ep Er Ed _ _ _ (at_push _ _ _ (site_of blk name) Hs))); apply halt_run|reflexivity].
  - intros act h t xs hs n f err Hcl _ IH src pt cd c Hc. destruct (call_shape _ _ _ _ _ _ _ _ _ Hc) as (p & _ & C2 & Hp & Ha & Hh). pose proof (IH src c Ha Hh) as B.
    destruct Hcl as [n f Hn Hf'|n f Hn Hno Hv Hf']; destruct (names_simple _ _ _ _ _ Hp Hn) as (E1 & E2 & E3).
    + destruct (B (ByName n) None (or_introl (ex_intro _ n (conj eq_refl Hf'))) ltac:(split; [congruence|discriminate])) as (N & HN). exists N. intros k st Hk Hs. destruct (HN k st Hk Hs) as (st' & E & O).
      exists st'. split; [|exact O]. unfold call_. rewrite C2, E1, E2, E3. cbn [need]. rewrite bind_ret, bind_get, (a_helper_at w en Er _ _ _ _ _ Hs Hf'). exact E.
    + destruct (B (ByRef f) None (or_intror eq_refl) ltac:(split; [congruence|discriminate])) as (N & HN). exists N. intros k st Hk Hs. destruct (HN k st Hk Hs) as (st' & E & O).
      exists st'. split; [|exact O]. unfold call_. rewrite C2, E1, E2, E3. cbn [need]. rewrite bind_ret, bind_get, (no_helper_at w en Er _ _ _ _ Hs Hno), (bind_ok _ _ _ _ _ (look_none w en Ed _ _ _ _ _ _ _ Hp Hs Hv)), Er, Hf'. exact E.
  - intros act h t xs hs Hn Hv Hx Hst Hms src pt cd c Hc. destruct (call_shape _ _ _ _ _ _ _ _ _ Hc) as (p & _ & C2 & Hp & _). exists 0. intros k st _ Hs. exists st. split; [|reflexivity].
    pose proof (look_none w en Ed _ _ _ _ _ _ _ Hp Hs Hv) as E. unfold call_. rewrite C2.
    assert (E1 : pa_explicit p = false). { destruct Hp as (_ & _ & _ & X & _). rewrite X. destruct h; try reflexivity; exfalso; apply Hx; [left; reflexivity|right; eexists; reflexivity]. }
    assert (E3 : path_str src p = Some (path_shown h t)). { destruct Hp as (_ & _ & _ & _ & _ & _ & _ & Es). exact Es. }
    rewrite E1. destruct (path_is_simple p) eqn:E2.
    + destruct (simple_names _ _ _ _ Hp E2) as (n & Hnm' & En). rewrite E3 in *. injection En as <-. cbn [need]. rewrite bind_ret, bind_get, (no_helper_at w en Er _ _ _ _ Hs (Hn _ Hnm')), (bind_ok _ _ _ _ _ E), Er, Hms, Hst by eauto.
      rewrite Hnm. reflexivity.
    + unfold resolve. rewrite (bind_ok _ _ _ _ _ E), Er, Hst, E3. cbn [need]. rewrite bind_ret, Hnm. reflexivity.
Qed.
End Fail.
