(** * TotalFacts: the semantics of Spec_Sem and Spec_Fail gives every tame document an outcome. *)
From Coq Require Import Lia String.
From Verif Require Import Str Lexer Json Ast ErrInfo Parser Render Helpers Registry StrFacts Spec_Lexer Spec_Values ValueFacts Spec_Helpers LookupFacts
  Spec_Render Spec_Blocks Spec_Calls LimitFacts CycleFacts HashFacts BuiltinFacts Props_Values Props_Blocks Spec_Source SynCall Spec_Sem SemFacts Props_Sem Spec_Fail Spec_Total.
Open Scope nat_scope. Open Scope list_scope.

(** ** Induction over expressions *)
Section expr_induction.
  Variable P : expr -> Prop.
  Hypothesis Hstr : forall sg l, P (EStr sg l).
  Hypothesis Harr : forall x, P (EArr x).
  Hypothesis Hnum : forall s, P (ENum s).
  Hypothesis Hbool : forall b, P (EBool b).
  Hypothesis Hnull : P ENull.
  Hypothesis Hpath : forall h t, P (EPath h t).
  Hypothesis Hsub : forall h t args hash, Forall P args -> Forall (fun kv => P (snd kv)) hash -> P (ESub (Call h t args hash)).
  Fixpoint expr_ind' (e : expr) : P e :=
    match e with
    | EStr sg l => Hstr sg l
    | EArr x => Harr x
    | ENum s => Hnum s
    | EBool b => Hbool b
    | ENull => Hnull
    | EPath h t => Hpath h t
    | ESub (Call h t args hash) =>
        Hsub h t args hash
          ((fix go (l : list expr) : Forall P l := match l with [] => Forall_nil _ | x :: l => Forall_cons x (expr_ind' x) (go l) end) args)
          ((fix go (l : list (str * expr)) : Forall (fun kv => P (snd kv)) l :=
              match l with [] => Forall_nil _ | x :: l => Forall_cons x (expr_ind' (snd x)) (go l) end) hash)
    end.
End expr_induction.

(** ** Deciding things *)
Lemma path_dec data scs h t : (exists v, path_value data scs h t v) \/ no_value data scs h t.
Proof.
  assert (V : forall parts, (exists v, visible parts data scs v) \/ (forall v, ~ visible parts data scs v)).
  { intros parts. destruct (find_in_scopes parts data scs) as [v|] eqn:E; [left; exists v; apply find_in_scopes_spec, E|]. right. intros v H. apply find_in_scopes_spec in H. congruence. }
  assert (F : forall d parts, (exists v, follow d parts v) \/ (forall v, ~ follow d parts v)).
  { intros d parts. destruct (find_parts parts d) as [v|] eqn:E; [left; exists v; apply find_parts_spec, E|]. right. intros v H. apply find_parts_spec in H. congruence. }
  assert (S : forall parts s, (exists v, scope_has parts s v) \/ (forall v, ~ scope_has parts s v)).
  { intros parts s. destruct (find_in_scope parts s) as [v|] eqn:E; [left; exists v; apply find_in_scope_spec, E|]. right. intros v H. apply find_in_scope_spec in H. congruence. }
  pose proof (proj1 (this_value_spec data scs _) eq_refl) as T.
  assert (TU : forall b, this_is data scs b -> b = this_value data scs) by (intros b H; symmetry; apply this_value_spec, H).
  destruct h as [n| |s|k n|n|n].
  - destruct (V (n :: segs t)) as [(v & H)|H]; [left; exists v; constructor; exact H|right; intros v X; inversion X; subst; eapply H; eassumption].
  - destruct t as [|x t]; [left; eexists; constructor; exact T|]. destruct (F (this_value data scs) (segs (x :: t))) as [(v & H)|H]; [left; exists v; eapply pv_this_in; eassumption|].
    right. intros v X. inversion X; subst. eapply H. match goal with Y : this_is _ _ _ |- _ => rewrite <- (TU _ Y) end. eassumption.
  - destruct (F (this_value data scs) (seg_value s :: segs t)) as [(v & H)|H]; [left; exists v; eapply pv_dot; eassumption|].
    right. intros v X. inversion X; subst. eapply H. match goal with Y : this_is _ _ _ |- _ => rewrite <- (TU _ Y) end. eassumption.
  - destruct k as [|k].
    + destruct (V (n :: segs t)) as [(v & H)|H]; [left; exists v; constructor; exact H|right; intros v X; inversion X; subst; eapply H; eassumption].
    + destruct (nth_error scs (Datatypes.S k)) as [sc|] eqn:En.
      * destruct (S (n :: segs t) sc) as [(v & H)|H]; [left; exists v; constructor; left; eauto|]. right. intros v X. inversion X as [| | | |? ? ? ? L| | |]; subst. destruct L as [(sc' & E' & L)|(E' & L)]; [|assert (Datatypes.S k < length scs) by (apply nth_error_Some; congruence); lia].
        rewrite En in E'. injection E' as <-. exact (H _ L).
      * destruct (Nat.eq_dec (Datatypes.S k) (length scs)) as [El|El].
        -- destruct (F data (n :: segs t)) as [(v & H)|H]; [left; exists v; constructor; right; auto|]. right. intros v X. inversion X as [| | | |? ? ? ? L| | |]; subst. destruct L as [(sc' & E' & L)|(E' & L)]; [congruence|exact (H _ L)].
        -- right. intros v X. inversion X as [| | | |? ? ? ? L| | |]; subst. destruct L as [(sc' & E' & L)|(E' & L)]; [congruence|contradiction].
  - destruct (list_eq_dec N.eq_dec n (lit "root")) as [->|Hn].
    + destruct (F data (segs t)) as [(v & H)|H]; [left; exists v; constructor; exact H|]. right. intros v X. inversion X; subst; [eapply H; eassumption|]. match goal with Y : _ <> _ |- _ => contradiction Y; reflexivity end.
    + destruct scs as [|sc scs]; [right; intros v X; inversion X; subst; [contradiction|discriminate]|].
      assert (L : (exists v, in_locals (([64%N] ++ n) :: segs t) sc v) \/ (forall v, ~ in_locals (([64%N] ++ n) :: segs t) sc v)) by (unfold in_locals; apply F).
      destruct L as [(v & H)|H]; [left; exists v; eapply pv_local; [reflexivity|exact Hn|exact H]|]. right. intros v X. inversion X as [| | | | | | |? ? s0 ss0 ? E0 N0 L0]; subst; [contradiction|]. injection E0 as <- <-. exact (H _ L0).
  - right. intros v X. inversion X.
Qed.
Lemma names_dec h t : (exists n, names h t n) \/ (forall n, ~ names h t n).
Proof.
  unfold names. destruct t as [|x t]; [|right; intros n (E & _); discriminate E].
  destruct h; try (right; intros n (_ & _ & []); fail); left; eexists; repeat split.
Qed.
Lemma names_unique h t n n' : names h t n -> names h t n' -> n = n'.
Proof. intros (_ & -> & _) (_ & -> & _). reflexivity. Qed.
Lemma names_shown h t n : names h t n -> path_shown h t = n.
Proof. intros (-> & -> & H). unfold path_shown, path_text. destruct h; try contradiction; reflexivity. Qed.
Lemma site_dec (a b : site) : {a = b} + {a <> b}.
Proof. decide equality; apply (list_eq_dec N.eq_dec). Qed.
Lemma active_dec n act : {In (SPartial n) act} + {~ In (SPartial n) act}.
Proof. apply in_dec, site_dec. Qed.
Lemma falsy_dec v : falsy v \/ ~ falsy v.
Proof. destruct (is_truthy v) eqn:E; [right; rewrite <- truthy_falsy; congruence|left; apply truthy_falsy, E]. Qed.
Lemma holds_dec v : holds v \/ ~ holds v.
Proof. destruct v as [v|]; [|right; apply not_holds_none]. destruct (falsy_dec v) as [H|H]; [right; intros (u & E & X); injection E as <-; contradiction|left; exists v; auto]. Qed.
Lemma iterations_total v : exists its, iterations_of v its.
Proof.
  destruct v as [| | | |l|l]; try (exists []; right; right; repeat split; intros ? ?; discriminate); eexists; [left|right; left]; eexists; split; reflexivity.
Qed.
Lemma insert_perm k (v : json) l : ~ In k (map fst l) -> Permutation (obj_insert k v l) ((k, v) :: l).
Proof.
  induction l as [|[k' v'] l IH]; intros H; cbn [obj_insert]; [apply Permutation_refl|]. destruct (strcmp k k') eqn:E.
  - apply strcmp_eq in E. subst k'. contradiction H. left. reflexivity.
  - apply Permutation_refl.
  - eapply Permutation_trans; [apply perm_skip, IH; intros X; apply H; right; exact X|apply perm_swap].
Qed.
Lemma map_total pairs : NoDup (map fst pairs) -> exists m, map_of m pairs.
Proof.
  induction pairs as [|[k v] l IH]; intros H; [exists []; split; [constructor|apply Permutation_refl]|]. cbn [map fst] in H. inversion H; subst. destruct IH as (m & Hs & Hp); [assumption|].
  exists (obj_insert k v m). split; [apply (C31_key_order m Hs)|]. eapply Permutation_trans; [apply insert_perm|apply perm_skip, Hp].
  intros X. match goal with Y : ~ In k _ |- _ => apply Y end. eapply Permutation_in; [apply Permutation_map; exact Hp|exact X].
Qed.
Lemma stripped_total s e x : exists y, stripped s e x y.
Proof. destruct (C46_stripped_unique s e x) as (y & H & _). eauto. Qed.

Section Total.
Variables (w : world) (nm : str).
Hypothesis Hf : fits w.
Hypothesis Hc : closed w.
Notation pe := (pl_penv (w_plat w)).

(** ** Values *)
Definition arg_tot (x : expr) : Prop := forall scs act, (exists v, arg_value w scs act x v) \/ (exists err, arg_fails w nm scs act x err).
Lemma args_tot xs : Forall arg_tot xs -> forall scs act, (exists vs, args_value w scs act xs vs) \/ (exists err, args_fail w nm scs act xs err).
Proof.
  induction 1 as [|x xs Hx H IH]; intros scs act; [left; exists []; constructor|]. destruct (Hx scs act) as [(v & Hv)|(err & He)]; [|right; exists err; apply asf_here, He].
  destruct (IH scs act) as [(vs & Hvs)|(err & He)]; [left; eexists; constructor; eassumption|right; exists err; eapply asf_later; eassumption].
Qed.
Lemma plain_arg x : is_sub x = false -> expr_ok pe x -> forall scs act, exists v, arg_value w scs act x v.
Proof.
  intros Hs Ho scs act. destruct x as [sg l|x|s|b| |h t|c]; try discriminate Hs; try (eexists; constructor; fail).
  - inversion Ho; subst. eexists. apply av_num. eassumption.
  - destruct (path_dec (w_data w) scs h t) as [(v & H)|H]; eexists; [apply av_path|apply av_no_path]; eassumption.
Qed.
Lemma plain_hash hs : filter (fun kx : str * expr => is_sub (snd kx)) hs = [] -> Forall (fun kv => key_ok (fst kv) /\ expr_ok pe (snd kv)) hs ->
  forall scs act, exists pairs, hash_value w scs act hs pairs.
Proof.
  induction hs as [|[k x] hs IH]; intros Hs Ho scs act; [exists []; constructor|]. cbn [filter snd] in Hs. destruct (is_sub x) eqn:Ex; [discriminate Hs|]. inversion Ho as [|? ? [_ Hx] Ho']; subst.
  destruct (plain_arg x Ex Hx scs act) as (v & Hv). destruct (IH Hs Ho' scs act) as (ps & Hps). eexists. constructor; eassumption.
Qed.
Lemma hash_app scs act l1 l2 p1 p2 : hash_value w scs act l1 p1 -> hash_value w scs act l2 p2 -> hash_value w scs act (l1 ++ l2) (p1 ++ p2).
Proof. revert p1. induction l1 as [|[k x] l1 IH]; intros p1 H1 H2; inversion H1; subst; [exact H2|]. cbn [app]. constructor; [assumption|]. apply IH; assumption. Qed.
Lemma one_sub (hs : list (str * expr)) : length (filter (fun kx => is_sub (snd kx)) hs) <= 1 ->
  filter (fun kx => is_sub (snd kx)) hs = [] \/ exists pre k x post, hs = pre ++ (k, x) :: post /\ filter (fun kx => is_sub (snd kx)) pre = [] /\ filter (fun kx => is_sub (snd kx)) post = [].
Proof.
  induction hs as [|[k x] hs IH]; intros H; [left; reflexivity|]. cbn [filter snd] in *. destruct (is_sub x) eqn:E.
  - right. exists [], k, x, hs. split; [reflexivity|]. split; [reflexivity|]. cbn [length] in H. destruct (filter _ hs); [reflexivity|cbn [length] in H; lia].
  - destruct (IH H) as [H1|(pre & k' & x' & post & -> & H1 & H2)]; [left; exact H1|]. right. exists ((k, x) :: pre), k', x', post. split; [reflexivity|]. split; [|exact H2]. cbn [filter snd]. rewrite E. exact H1.
Qed.
Lemma hash_tot hs : Forall (fun kx => arg_tot (snd kx)) hs -> Forall (fun kv => key_ok (fst kv) /\ expr_ok pe (snd kv)) hs -> length (filter (fun kx => is_sub (snd kx)) hs) <= 1 ->
  forall scs act, (exists pairs, hash_value w scs act hs pairs) \/ (exists err, hash_fails w nm scs act hs err).
Proof.
  intros Ht Ho Hl scs act. destruct (one_sub hs Hl) as [H|(pre & k & x & post & -> & H1 & H2)]; [left; apply plain_hash; assumption|].
  apply Forall_app in Ho. destruct Ho as [O1 O2]. inversion O2 as [|? ? O3 O4]; subst. apply Forall_app in Ht. destruct Ht as [_ T2]. inversion T2 as [|? ? T3 T4]; subst. cbn [snd] in *.
  destruct (plain_hash pre H1 O1 scs act) as (p1 & P1). destruct (plain_hash post H2 O4 scs act) as (p2 & P2).
  destruct (T3 scs act) as [(v & Hv)|(err & He)].
  - left. exists (p1 ++ (k, v) :: p2). apply hash_app; [exact P1|]. constructor; assumption.
  - right. exists err. eapply hf_one; eassumption.
Qed.
Lemma hash_keys scs act hs pairs : hash_value w scs act hs pairs -> map fst pairs = map fst hs.
Proof. revert pairs. induction hs as [|[k x] hs IH]; intros pairs H; inversion H; subst; [reflexivity|]. cbn [map fst]. f_equal. apply IH. assumption. Qed.

(** ** Calls of helpers *)
Definition args_ready (xs : list expr) (hs : list (str * expr)) : Prop := Forall arg_tot xs /\ Forall (fun kx => arg_tot (snd kx)) hs
  /\ Forall (fun kv => key_ok (fst kv) /\ expr_ok pe (snd kv)) hs /\ length (filter (fun kx => is_sub (snd kx)) hs) <= 1 /\ NoDup (map fst hs).
Lemma ready_values xs hs scs act : args_ready xs hs ->
  (exists vs pairs ps, args_value w scs act xs vs /\ hash_value w scs act hs pairs /\ map_of ps pairs)
  \/ (exists err, args_fail w nm scs act xs err) \/ (exists vs err, args_value w scs act xs vs /\ hash_fails w nm scs act hs err).
Proof.
  intros (R1 & R2 & R3 & R4 & R5). destruct (args_tot xs R1 scs act) as [(vs & Hvs)|(err & He)]; [|right; left; eauto]. destruct (hash_tot hs R2 R3 R4 scs act) as [(pairs & Hp)|(err & He)]; [|right; right; eauto].
  destruct (map_total pairs) as (ps & Hps); [rewrite (hash_keys _ _ _ _ Hp); exact R5|]. left. eauto 10.
Qed.
Lemma helper_tot blk n f xs hs text prop scs act (P : hprog -> Prop) : args_ready xs hs ->
  (forall vs ps, exists p, acts w scs f n vs ps text prop blk p /\ (P p \/ exists s, p = halt s)) ->
  (exists p, helper_call w scs act blk n f xs hs text prop p /\ P p) \/ (exists err, helper_call_fails w nm scs act blk n f xs hs text prop err).
Proof.
  intros Hr Hp. destruct (le_lt_dec 32 (count_site (site_of blk n) act)) as [Hn|Hn]; [right; eexists; apply hc_cycle, Hn|].
  destruct (ready_values xs hs scs (site_of blk n :: act) Hr) as [(vs & pairs & ps & H1 & H2 & H3)|[(err & He)|(vs & err & H1 & He)]]; [|right; exists err; apply hc_arg; assumption|right; exists err; eapply hc_hash; eassumption].
  destruct (Hp vs ps) as (p & Ha & [X|(s & ->)]); [left; exists p; split; [split; [exact Hn|eauto 10]|exact X]|]. right. exists s. apply hc_run. split; [exact Hn|]. eauto 10.
Qed.
(** what a statement comes to *)
Lemma call_cases h t scs : (exists n f, called w scs h t n f) \/ (not_helper w h t /\ ((exists v, path_value (w_data w) scs h t v) \/ (no_value (w_data w) scs h t /\ ((exists n, names h t n) -> rg_missing (w_reg w) = None)))).
Proof.
  destruct (path_dec (w_data w) scs h t) as [(v & Hv)|Hv].
  - destruct (names_dec h t) as [(n & Hn)|Hn].
    + destruct (assoc n (rg_helpers (w_reg w))) as [f|] eqn:E; [left; exists n, f; apply called_helper; assumption|]. right. split; [|left; eauto]. intros n' Hn'. rewrite (names_unique _ _ _ _ Hn' Hn). exact E.
    + right. split; [intros n Hn'; contradiction (Hn n Hn')|left; eauto].
  - destruct (names_dec h t) as [(n & Hn)|Hn].
    + destruct (assoc n (rg_helpers (w_reg w))) as [f|] eqn:E; [left; exists n, f; apply called_helper; assumption|]. destruct (rg_missing (w_reg w)) as [f|] eqn:Em; [left; eexists _, f; eapply called_missing; eassumption|].
      right. split; [|right; auto]. intros n' Hn'. rewrite (names_unique _ _ _ _ Hn' Hn). exact E.
    + right. split; [intros n Hn'; contradiction (Hn n Hn')|]. right. split; [exact Hv|]. intros (n & Hn'). contradiction (Hn n Hn').
Qed.
Lemma explicit_dec h : explicit h \/ ~ explicit h.
Proof. unfold explicit. destruct h as [n| |s|k n|n|n]; try (right; intros [X|(s' & X)]; discriminate X); left; [left; reflexivity|right; eauto]. Qed.
Lemma call_tot h t xs hs scs act (P : hprog -> Prop) : args_ready xs hs ->
  (forall n f, called w scs h t n f -> forall vs ps, exists p, acts w scs f n vs ps None None false p /\ (P p \/ exists s, p = halt s)) ->
  (exists n f p, called w scs h t n f /\ helper_call w scs act false n f xs hs None None p /\ P p)
  \/ (exists v, call_value w scs act (Call h t xs hs) v) \/ (exists err, call_fails w nm scs act (Call h t xs hs) err).
Proof.
  intros Hr Hp. destruct (call_cases h t scs) as [(n & f & Hcl)|(Hn & [(v & Hv)|(Hv & Hm)])].
  - destruct (helper_tot false n f xs hs None None scs act P Hr (Hp n f Hcl)) as [(p & H1 & H2)|(err & He)]; [left; eauto 10|]. right. right. exists err. eapply cf_helper; eassumption.
  - right. left. exists (Some v). apply cv_variable; assumption.
  - destruct (explicit_dec h) as [Hx|Hx].
    + right. left. exists None. apply cv_missing; [assumption|assumption|]. destruct Hx as [Hx|Hx]; [left; exact Hx|right; left; exact Hx].
    + destruct (rg_strict (w_reg w)) eqn:Es; [right; right; eexists; apply cf_strict; assumption|]. right. left. exists None. apply cv_missing; [assumption|assumption|]. right. right. auto.
Qed.
Lemma value_tot h t xs hs scs act : args_ready xs hs -> silent w (Call h t xs hs) ->
  (exists v, call_value w scs act (Call h t xs hs) v) \/ (exists err, call_fails w nm scs act (Call h t xs hs) err).
Proof.
  intros Hr Hs. destruct (call_tot h t xs hs scs act (fun p => exists v, p = HRet v) Hr) as [(n & f & p & Hcl & H & (v & ->))|X]; [|left|exact X].
  - intros n f Hcl vs ps. exact (Hs scs n f Hcl scs n vs ps None None).
  - destruct H as (H1 & vs & pairs & ps & H2 & H3 & H4 & H5). exists v. eapply cv_helper; eassumption.
Qed.
Lemma sub_tot x : expr_ok pe x -> tame_expr w x -> arg_tot x.
Proof.
  induction x as [sg l|x|s|b| |h t|h t args hash IHa IHh] using expr_ind'; intros Ho Ht scs act; try (left; apply plain_arg; [reflexivity|exact Ho]).
  inversion Ht as [? X|? Hs Htc]; subst; [discriminate X|]. inversion Htc as [? ? ? ? T1 T2 T3]; subst. inversion Ho as [| | | | | |? Hok]; subst. inversion Hok as [? ? ? ? O1 O2 O3 O4 O5]; subst.
  assert (Hr : args_ready args hash).
  { split; [|split; [|split; [exact O4|split; [exact T3|exact O5]]]].
    - rewrite Forall_forall in *. auto.
    - rewrite Forall_forall in *. intros kx Hin. apply IHh; [exact Hin|apply O4, Hin|apply T2, Hin]. }
  destruct (value_tot h t args hash scs act Hr Hs) as [([v|] & Hv)|(err & He)]; [left; exists v; apply av_sub, Hv|left; exists JNull; apply av_no_sub, Hv|right; exists err; apply af_sub, He].
Qed.
Lemma call_ready h t xs hs : callx_ok pe (Call h t xs hs) -> tame_call w (Call h t xs hs) -> args_ready xs hs.
Proof.
  intros Ho Ht. inversion Ht as [? ? ? ? T1 T2 T3]; subst. inversion Ho as [? ? ? ? O1 O2 O3 O4 O5]; subst. split; [|split; [|split; [exact O4|split; [exact T3|exact O5]]]].
  - rewrite Forall_forall in *. intros x Hin. apply sub_tot; auto.
  - rewrite Forall_forall in *. intros x Hin. apply sub_tot; [apply O4, Hin|apply T2, Hin].
Qed.

Lemma args_are_ready xs hs : args_ok pe xs hs -> tame_args w xs hs -> args_ready xs hs.
Proof.
  intros (O3 & O4 & O5) (T1 & T2 & T3). split; [|split; [|split; [exact O4|split; [exact T3|exact O5]]]].
  - rewrite Forall_forall in *. intros x Hin. apply sub_tot; auto.
  - rewrite Forall_forall in *. intros x Hin. apply sub_tot; [apply O4, Hin|apply T2, Hin].
Qed.

(** ** Items *)
Definition fine (l : list item) : Prop := Forall (item_ok pe) l /\ Forall (tame w) l.
Definition pb_fine (pb : option (list item)) : Prop := forall d, pb = Some d -> fine d.
Definition item_tot (scs : list scope) (act : list site) (pb : option (list item)) (s e : bool) (i : item) : Prop :=
  (exists pb' out, pb_fine pb' /\ item_out w scs act pb pb' s e i out) \/ (exists out err, item_err w nm scs act pb s e i out err).
Definition items_tot (scs : list scope) (act : list site) (pb : option (list item)) (s e : bool) (l : list item) : Prop :=
  (exists pb' out, pb_fine pb' /\ items_out w scs act pb pb' s e l out) \/ (exists out err, items_err w nm scs act pb s e l out err).
Lemma ok_all a b l : items_ok pe a b l -> Forall (item_ok pe) l.
Proof. induction 1; constructor; try assumption. constructor. Qed.
Lemma doc_fine n d : assoc n (w_docs w) = Some d -> fine d.
Proof. intros H. split; [|exact (cl_docs w Hc n d H)]. destruct (fit_docs w Hf n d H) as (Hd & _). exact (ok_all _ _ _ Hd). Qed.

Lemma helper_out_tot s e (p : hprog) : (exists ws v, p = writes ws v) -> exists out, helper_out w s e p out.
Proof.
  intros (ws & v & ->). induction ws as [|[x esc] ws (out & IH)]; [eexists; apply ho_value|]. destruct (stripped_total s e x) as (y & Hy). eexists. apply ho_writes; [exact Hy|exact IH].
Qed.
Lemma simple_tot blk f n xs hs text prop scs act : simple w blk f -> args_ready xs hs ->
  (exists p, helper_call w scs act blk n f xs hs text prop p /\ (exists ws v, p = writes ws v)) \/ (exists err, helper_call_fails w nm scs act blk n f xs hs text prop err).
Proof.
  intros Hs Hr. apply helper_tot; [exact Hr|]. intros vs ps. exact (Hs scs n vs ps text prop).
Qed.
Lemma called_simple scs h t n f : called w scs h t n f -> simple w false f.
Proof. intros [n0 f0 _ H|n0 f0 _ _ _ H]; [apply (cl_helper w Hc n0 f0 H)|apply (cl_missing w Hc f0 H)]. Qed.

(** text of any kind *)
Lemma write_tot s e x (R : str -> Prop) : (forall y, stripped s e x y -> R y) -> exists y, R y.
Proof. intros H. destruct (stripped_total s e x) as (y & Hy). eauto. Qed.
Lemma statement_tot scs act pb s e triple m c : pb_fine pb -> callx_ok pe c -> tame_call w c -> item_tot scs act pb s e (ICall triple m false c).
Proof.
  intros Hpb Ho Ht. destruct c as [h t xs hs]. pose proof (call_ready h t xs hs Ho Ht) as Hr.
  destruct (call_tot h t xs hs scs act (fun p => exists ws v, p = writes ws v) Hr) as [(n & f & p & Hcl & H & Hp)|[([v|] & Hv)|(err & He)]].
  - intros n f Hcl vs ps. exact (called_simple _ _ _ _ _ Hcl scs n vs ps None None).
  - destruct Hp as (ws & v & ->). destruct (helper_out_tot s e (writes ws v)) as (out & Hout); [eauto|]. destruct v as [v|]; [|left; exists pb, out; split; [exact Hpb|eapply io_print; eassumption]].
    destruct (C56_shown_total (pl_fstr (w_plat w)) v) as (x & Hx). destruct (stripped_total s e x) as (y & Hy). left. exists pb. eexists. split; [exact Hpb|eapply io_print_value; eassumption].
  - destruct (C56_shown_total (pl_fstr (w_plat w)) v) as (x & Hx). destruct (stripped_total s e x) as (y & Hy). left. exists pb. eexists. split; [exact Hpb|eapply io_value; eassumption].
  - left. exists pb, []. split; [exact Hpb|apply io_missing, Hv].
  - right. exists [], err. apply ie_call, He.
Qed.
Lemma dyn_tot scs act pb s e triple m c xs' hs' : pb_fine pb -> callx_ok pe c -> tame_call w c -> item_tot scs act pb s e (IDyn triple m false c xs' hs').
Proof.
  intros Hpb Ho Ht. destruct c as [h t xs hs]. pose proof (call_ready h t xs hs Ho Ht) as Hr.
  destruct (call_tot h t xs hs scs act (fun p => exists ws v, p = writes ws v) Hr) as [(n & f & p & Hcl & H & Hp)|[([v|] & Hv)|(err & He)]].
  - intros n f Hcl vs ps. exact (called_simple _ _ _ _ _ Hcl scs n vs ps None None).
  - destruct Hp as (ws & v & ->). destruct (helper_out_tot s e (writes ws v)) as (out & Hout); [eauto|]. destruct v as [v|]; [|left; exists pb, out; split; [exact Hpb|eapply io_dyn_print; eassumption]].
    destruct (C56_shown_total (pl_fstr (w_plat w)) v) as (x & Hx). destruct (stripped_total s e x) as (y & Hy). left. exists pb. eexists. split; [exact Hpb|eapply io_dyn_print_value; eassumption].
  - destruct (C56_shown_total (pl_fstr (w_plat w)) v) as (x & Hx). destruct (stripped_total s e x) as (y & Hy). left. exists pb. eexists. split; [exact Hpb|eapply io_dyn_value; eassumption].
  - left. exists pb, []. split; [exact Hpb|apply io_dyn_missing, Hv].
  - right. exists [], err. apply ie_dyn, He.
Qed.
Lemma link_tot scs act pb s e esc parts : pb_fine pb -> item_tot scs act pb s e (ILink esc parts).
Proof.
  intros Hpb. assert (Pl : esc = true \/ pl_links (w_plat w) = false \/ rg_link (w_reg w) = None -> item_tot scs act pb s e (ILink esc parts)).
  { intros H. destruct (stripped_total s e (lit "[[" ++ link_text parts ++ lit "]]")) as (y & Hy). left. exists pb, y. split; [exact Hpb|apply io_link; assumption]. }
  destruct esc; [apply Pl; auto|]. destruct (pl_links (w_plat w)) eqn:El; [|apply Pl; auto]. destruct (rg_link (w_reg w)) as [f|] eqn:Er; [|apply Pl; auto].
  destruct (le_lt_dec 32 (count_site (SHelper (lit "link")) act)) as [Hn|Hn]; [right; eexists _, _; eapply ie_link_cycle; eassumption|].
  destruct (cl_link w Hc f Er scs (lit "link") [JStr (link_arg parts 0); JStr (link_arg parts 1); JStr (link_arg parts 2)] [] None None) as (p & Ha & Hp).
  destruct Hp as [Hp|(x & ->)]; [|right; exists [], x; eapply ie_link; eassumption]; (destruct (helper_out_tot s e p) as (out & Hout); [auto|]; left; exists pb, out; split; [exact Hpb|eapply io_link_handler; eassumption]).
Qed.
Lemma raw_tot scs act pb s e c m x m' : pb_fine pb -> callx_ok pe c -> block_name_ok c -> tame w (IRaw c m x m') -> item_tot scs act pb s e (IRaw c m x m').
Proof.
  intros Hpb Ho Hb Ht. inversion Ht as [| | | | | | |? ? ? ? Ht1 Ht2|]; subst. destruct c as [h t xs hs]. destruct h as [n| | | | | ]; try contradiction Hb. destruct t; [|contradiction Hb].
  pose proof (call_ready _ _ xs hs Ho Ht1) as Hr. destruct (stripped_total (tl_after m) (tl_before m') x) as (y & Hy). cbn [call_name] in Ht2. unfold path_text in Ht2. cbn [head_text tail_text] in Ht2. rewrite app_nil_r in Ht2.
  destruct (assoc n (rg_helpers (w_reg w))) as [f|] eqn:Eh.
  - destruct (simple_tot true f n xs hs (Some y) None scs act (Ht2 f eq_refl) Hr) as [(p & H & Hp)|(err & He)]; [|right; exists [], err; eapply ie_raw; eassumption].
    destruct (helper_out_tot s e p Hp) as (out & Hout). left. exists pb, out. split; [exact Hpb|eapply io_raw_helper; eassumption].
  - destruct (stripped_total s e y) as (z & Hz). left. exists pb, z. split; [exact Hpb|eapply io_raw; eassumption].
Qed.

(** ** Branches *)
Lemma else_tot bs scs act : Forall (fun b => forall x, br_cond b = Some x -> silent w x /\ tame_call w x /\ callx_ok pe x) bs ->
  (exists r, else_branch w scs act bs r) \/ (exists err, cond_breaks w nm scs act bs err).
Proof.
  intros H. enough (X : Forall (cond_fails w scs act) bs \/ (exists pre b post c v, bs = pre ++ b :: post /\ Forall (cond_fails w scs act) pre /\ br_cond b = Some c /\ call_value w scs act c v /\ holds v) \/ (exists err, cond_breaks w nm scs act bs err)).
  { destruct X as [X|[(pre & b & post & c & v & E & X1 & X2 & X3 & X4)|X]]; [|left; eexists; eapply else_cond; eassumption|right; exact X].
    assert (L : (exists pre b post, bs = pre ++ b :: post /\ br_cond b = None /\ forall y, In y post -> br_cond y <> None) \/ (forall y, In y bs -> br_cond y <> None)).
    { clear. induction bs as [|b bs IH]; [right; intros y []|]. destruct IH as [(pre & b' & post & -> & E1 & E2)|IH]; [left; exists (b :: pre), b', post; auto|].
      destruct (br_cond b) eqn:E; [right; intros y [<-|Hy]; [congruence|auto]|left; exists [], b, bs; auto]. }
    destruct L as [(pre & b & post & E & E1 & E2)|L]; left; eexists; [eapply else_plain; eassumption|apply else_none; assumption]. }
  induction H as [|b bs Hb H IH]; [left; constructor|].
  assert (B : cond_fails w scs act b \/ (exists c v, br_cond b = Some c /\ call_value w scs act c v /\ holds v) \/ (exists c err, br_cond b = Some c /\ call_fails w nm scs act c err)).
  { destruct (br_cond b) as [c|] eqn:Eb; [|left; intros c X; congruence]. destruct (Hb c eq_refl) as (H1 & H2 & H3). destruct c as [h t xs hs].
    destruct (value_tot h t xs hs scs act (call_ready _ _ _ _ H3 H2) H1) as [(v & Hv)|(err & He)]; [|right; right; eauto]. destruct (holds_dec v) as [Hh|Hh]; [right; left; eauto|]. left. intros c X. rewrite Eb in X. injection X as <-. eauto. }
  destruct B as [B|[(c & v & B1 & B2 & B3)|(c & err & B1 & B2)]].
  - destruct IH as [IH|[(pre & b' & post & c & v & -> & X1 & X2)|(err & [pre b' post c -> X1 X2 X3])]]; [left; constructor; assumption| |].
    + right. left. exists (b :: pre), b', post, c, v. split; [reflexivity|]. split; [constructor; assumption|exact X2].
    + right. right. exists err. apply (cond_break _ _ _ _ _ _ (b :: pre) b' post c); [reflexivity|constructor; assumption|assumption|assumption].
  - right. left. exists [], b, bs, c, v. split; [reflexivity|]. split; [constructor|]. auto.
  - right. right. exists err. apply (cond_break _ _ _ _ _ _ [] b bs c); [reflexivity|constructor|assumption|assumption].
Qed.

(** ** The induction: partials that are not being rendered yet, then the size of the items *)
Fixpoint isize (i : item) : nat :=
  match i with
  | IBlock _ _ _ body bs _ => S (list_sum (map isize body) + list_sum (map (fun b => S (list_sum (map isize (snd b)))) bs))
  | _ => 1
  end.
Definition lsize (l : list item) : nat := list_sum (map isize l).
Definition all_names : list str := lit "@partial-block" :: map fst (w_docs w).
Definition left_in (act : list site) : nat := idle all_names act.
Lemma doc_name n d : assoc n (w_docs w) = Some d -> In n all_names.
Proof.
  intros H. right. induction (w_docs w) as [|[k x] l IH]; [discriminate H|]. cbn [assoc] in H. destruct (streq n k) eqn:E; [left; symmetry; apply streq_eq, E|right; apply IH, H].
Qed.
Lemma source_name pb n d : partial_source w pb n d -> In n all_names.
Proof. intros [(-> & _)|(_ & H)]; [left; reflexivity|exact (doc_name _ _ H)]. Qed.
Lemma left_partial n act : In n all_names -> ~ In (SPartial n) act -> left_in (SPartial n :: act) < left_in act.
Proof.
  intros Hn Ha. apply idle_push; [exact Hn|]. destruct (existsb _ act) eqn:E; [|reflexivity]. contradiction Ha. apply existsb_exists in E. destruct E as (x & Hx & E). apply site_eq_true in E. subst x. exact Hx.
Qed.
Lemma left_block n act : left_in (SBlock n :: act) = left_in act.
Proof. unfold left_in. induction all_names as [|x l IH]; [reflexivity|]. cbn [idle existsb]. rewrite IH. reflexivity. Qed.

Section Step.
Variable k : nat.
(** documents, when fewer partials are left *)
Hypothesis IHk : forall act d scs pb s e, left_in act < k -> fine d -> pb_fine pb -> items_tot scs act pb s e d.
Variable m0 : nat.
(** smaller lists of items *)
Hypothesis IHm : forall l act scs pb s e, lsize l < m0 -> left_in act <= k -> fine l -> pb_fine pb -> items_tot scs act pb s e l.

Lemma source_fine pb n d : pb_fine pb -> partial_source w pb n d -> fine d.
Proof. intros Hpb [(_ & H)|(_ & H)]; [apply Hpb, H|exact (doc_fine _ _ H)]. Qed.
Lemma source_tot pb n : (exists d, partial_source w pb n d) /\ known_partial w pb n \/ ~ known_partial w pb n.
Proof.
  unfold partial_source, known_partial. destruct (list_eq_dec N.eq_dec n (lit "@partial-block")) as [->|Hn].
  - destruct pb as [d|]; [left; split; [exists d; left; auto|left; split; [reflexivity|discriminate]]|].
    destruct (assoc (lit "@partial-block") (rg_templates (w_reg w))) as [te|] eqn:E; [|right; intros [(_ & X)|X]; apply X; auto].
    left. split; [|right; discriminate]. pose proof (cl_templates w Hc (lit "@partial-block") ltac:(congruence)) as Hd. destruct (assoc (lit "@partial-block") (w_docs w)) as [d|]; [|contradiction Hd; reflexivity].
    exists d. right. auto.
  - destruct (assoc n (rg_templates (w_reg w))) as [te|] eqn:E; [|right; intros [(X & _)|X]; [contradiction|apply X; reflexivity]].
    left. split; [|right; discriminate]. pose proof (cl_templates w Hc n ltac:(congruence)) as Hd. destruct (assoc n (w_docs w)) as [d|]; [|contradiction Hd; reflexivity]. exists d. right. auto.
Qed.
(** entering a partial *)
Lemma include_tot act scs pb n xs hs : left_in act <= k -> args_ready xs hs -> pb_fine pb ->
  (exists err, include_fails w nm scs act pb n xs hs err)
  \/ (~ In (SPartial n) act /\ exists d sc, partial_source w pb n d /\ partial_args w scs act n xs hs sc /\ items_tot (sc :: scs) (SPartial n :: act) pb false false d).
Proof.
  intros Hk Hr Hpb. destruct (active_dec n act) as [Ha|Ha]; [left; eexists; apply inf_cycle, Ha|]. destruct (source_tot pb n) as [((d & Hd) & Hkn)|Hkn]; [|left; eexists; apply inf_unknown; assumption].
  destruct Hr as (R1 & R2 & R3 & R4 & R5). destruct (hash_tot hs R2 R3 R4 scs (SPartial n :: act)) as [(pairs & Hp)|(err & He)]; [|left; exists err; apply inf_hash; assumption].
  destruct (args_tot xs R1 scs (SPartial n :: act)) as [(vs & Hvs)|(err & He)]; [|left; exists err; eapply inf_args; eassumption].
  destruct (map_total pairs) as (ps & Hps); [rewrite (hash_keys _ _ _ _ Hp); exact R5|]. right. split; [exact Ha|]. exists d, (partial_scope vs ps). split; [exact Hd|]. split; [exists vs, pairs, ps; auto|].
  apply IHk; [|exact (source_fine _ _ _ Hpb Hd)|exact Hpb]. eapply Nat.lt_le_trans; [apply left_partial; [exact (source_name _ _ _ Hd)|exact Ha]|exact Hk].
Qed.
Lemma partial_tot scs act pb s e triple m c : left_in act <= k -> pb_fine pb -> callx_ok pe c -> tame_call w c -> item_tot scs act pb s e (ICall triple m true c).
Proof.
  intros Hk Hpb Ho Ht. destruct c as [h t xs hs]. pose proof (call_ready h t xs hs Ho Ht) as Hr.
  assert (Hn : partial_name h t (path_shown h t) \/ ((forall n, ~ names h t n) /\ path_shown h t <> lit "@partial-block")).
  { destruct (names_dec h t) as [(n & Hn)|Hn]; [left; pose proof (names_shown _ _ _ Hn) as E; rewrite E; split; [symmetry; exact E|left; exact Hn]|].
    destruct (list_eq_dec N.eq_dec (path_shown h t) (lit "@partial-block")) as [E|E]; [left; split; [reflexivity|right; exact E]|right; auto]. }
  destruct Hn as [Hn|(Hn & Hn')]; [|right; eexists _, _; apply ie_partial_identifier; assumption].
  destruct (include_tot act scs pb (path_shown h t) xs hs Hk Hr Hpb) as [(err & He)|(Ha & d & sc & Hd & Hsc & [(pb' & out & Hpb' & Hout)|(out & err & He)])].
  - right. exists [], err. eapply ie_partial_enter; eassumption.
  - left. exists pb', out. split; [exact Hpb'|eapply io_partial; eassumption].
  - right. exists out, err. eapply ie_partial; eassumption.
Qed.
Lemma dyn_partial_tot scs act pb s e triple m c xs hs : left_in act <= k -> pb_fine pb -> callx_ok pe c -> tame_call w c -> silent w c -> args_ready xs hs ->
  item_tot scs act pb s e (IDyn triple m true c xs hs).
Proof.
  intros Hk Hpb Ho Ht Hs Hr. destruct c as [ch ct cx chs]. pose proof (call_ready _ _ _ _ Ho Ht) as Hrc.
  destruct (value_tot ch ct cx chs scs act Hrc Hs) as [(v & Hv)|(err & He)]; [|right; exists [], err; apply ie_dyn, He].
  destruct (C56_shown_total (pl_fstr (w_plat w)) (match v with Some v => v | None => JNull end)) as (n & Hn).
  destruct (include_tot act scs pb n xs hs Hk Hr Hpb) as [(err & He)|(Ha & d & sc & Hd & Hsc & [(pb' & out & Hpb' & Hout)|(out & err & He)])].
  - right. exists [], err. eapply ie_dyn_enter; eassumption.
  - left. exists pb', out. split; [exact Hpb'|eapply io_dyn_partial; eassumption].
  - right. exists out, err. eapply ie_dyn_partial; eassumption.
Qed.
Lemma partial_block_tot scs act pb s e n xs hs m body bs m' : left_in act <= k -> fine body -> args_ready xs hs -> item_tot scs act pb s e (IBlock true (Call (HdName n) [] xs hs) m body bs m').
Proof.
  intros Hk Hb Hr. assert (Hpb : pb_fine (Some body)) by (intros d X; injection X as <-; exact Hb).
  destruct (include_tot act scs (Some body) n xs hs Hk Hr Hpb) as [(err & He)|(Ha & d & sc & Hd & Hsc & [(pb' & out & Hpb' & Hout)|(out & err & He)])].
  - right. exists [], err. eapply ie_partial_block_enter; eassumption.
  - left. exists pb', out. split; [exact Hpb'|eapply io_partial_block; eassumption].
  - right. exists out, err. eapply ie_partial_block; eassumption.
Qed.
(** the body once per scope *)
Lemma rounds_tot its : forall scs act pb s e l, lsize l < m0 -> left_in act <= k -> fine l -> pb_fine pb ->
  (exists pb' out, pb_fine pb' /\ rounds_out w its scs act pb pb' s e l out) \/ (exists out err, rounds_err w nm its scs act pb s e l out err).
Proof.
  induction its as [|sc its IH]; intros scs act pb s e l Hl Hk Hfl Hpb; [left; exists pb, []; split; [exact Hpb|constructor]|].
  destruct (IHm l act (sc :: scs) pb s e Hl Hk Hfl Hpb) as [(pb1 & o & Hpb1 & Ho)|(o & err & He)]; [|right; exists o, err; apply round_here, He].
  destruct (IH scs act pb1 s e l Hl Hk Hfl Hpb1) as [(pb2 & o' & Hpb2 & Ho')|(o' & err & He)]; [left; exists pb2; eexists; split; [exact Hpb2|eapply round_next; eassumption]|].
  right. exists (o ++ o'), err. eapply round_later; eassumption.
Qed.
Lemma else_out_tot scs act pb bs m' r : Forall (fun b => lsize (br_body b) < m0 /\ fine (br_body b)) bs -> left_in act <= k -> pb_fine pb -> else_branch w scs act bs r ->
  (exists pb' out, pb_fine pb' /\ else_out w scs act pb pb' m' r out) \/ (exists out err, else_err w nm scs act pb bs m' out err).
Proof.
  intros Hbs Hk Hpb Hr. destruct r as [[b post]|]; [|left; exists pb, []; split; [exact Hpb|constructor]].
  assert (Hin : In b bs) by (inversion Hr; subst; apply in_or_app; right; left; reflexivity). rewrite Forall_forall in Hbs. destruct (Hbs b Hin) as (Hl & Hfb).
  destruct (IHm (br_body b) act scs pb (tl_after (br_tildes b)) (tl_before (next_tag post m')) Hl Hk Hfb Hpb) as [(pb' & out & Hpb' & Hout)|(out & err & He)].
  - left. exists pb', out. split; [exact Hpb'|constructor; exact Hout].
  - right. exists out, err. eapply else_err_body; eassumption.
Qed.
Lemma block_arity scs n (xs : list expr) vs ps text prop f : In n block_helpers -> builtin (w_plat w) n f -> length xs <> 1 -> length vs = length xs -> acts w scs f n vs ps text prop true (HFail (EArityExact n 1)).
Proof.
  intros Hn Hb Hl Hv ctx t E1 E2 E3 E4 E5 Ht K en st _.
  assert (Ha : In (n, 1%N, 1%N) arities) by (cbn in Hn; repeat destruct Hn as [<-|Hn]; try contradiction; cbn; tauto).
  pose proof (C51_arity (w_plat w) n 1 1 f ctx t Ha Hb) as R. rewrite E1 in R. apply R. rewrite E2. lia.
Qed.
Lemma args_length' scs act xs : forall vs, args_value w scs act xs vs -> length vs = length xs.
Proof. induction xs as [|x xs IH]; intros vs H; inversion H; subst; [reflexivity|]. cbn. f_equal. apply IH. assumption. Qed.
Lemma standard_tot scs act pb s e n f xs hs m body bs m' : In n block_helpers -> builtin (w_plat w) n f -> assoc n (rg_helpers (w_reg w)) = Some f ->
  args_ready xs hs -> left_in act <= k -> pb_fine pb -> lsize body < m0 -> fine body -> Forall (fun b => lsize (br_body b) < m0 /\ fine (br_body b)) bs ->
  Forall (fun b => forall x, br_cond b = Some x -> silent w x /\ tame_call w x /\ callx_ok pe x) bs ->
  item_tot scs act pb s e (IBlock false (Call (HdName n) [] xs hs) m body bs m').
Proof.
  intros Hn Hb Hh Hr Hk Hpb Hlb Hfb Hbs Hcs.
  assert (Fail : (exists err, helper_call_fails w nm scs act true n f xs hs None None err) -> item_tot scs act pb s e (IBlock false (Call (HdName n) [] xs hs) m body bs m')).
  { intros (err & He). right. exists [], err. eapply ie_block_helper; eassumption. }
  destruct (le_lt_dec 32 (count_site (site_of true n) act)) as [Hct|Hct]; [apply Fail; eexists; apply hc_cycle, Hct|].
  destruct (ready_values xs hs scs (site_of true n :: act) Hr) as [(vs & pairs & ps & H1 & H2 & H3)|[(err & He)|(vs & err & H1 & He)]];
    [|apply Fail; exists err; apply hc_arg; assumption|apply Fail; exists err; eapply hc_hash; eassumption].
  destruct (Nat.eq_dec (length xs) 1) as [Hl|Hl].
  2: { apply Fail. exists (Fails (EArityExact n 1)). apply hc_run. split; [exact Hct|]. exists vs, pairs, ps. repeat (split; [assumption|]). apply (block_arity scs n xs); try assumption. eapply args_length', H1. }
  destruct xs as [|x [|? ?]]; try discriminate Hl. clear Hl. inversion H1 as [|? ? v ? Hv Hvs]; subst. inversion Hvs; subst. cbn [site_of] in *.
  assert (Ba : block_arg w scs act n x hs v) by (split; [exists f; auto|]; split; [exact Hct|]; split; [exact Hv|]; eauto).
  pose proof Hk as Hk'. rewrite <- (left_block n) in Hk'.
  assert (Else : (exists r pb' out, else_branch w scs (SBlock n :: act) bs r /\ pb_fine pb' /\ else_out w scs (SBlock n :: act) pb pb' m' r out) \/ (exists out err, else_err w nm scs (SBlock n :: act) pb bs m' out err)).
  { destruct (else_tot bs scs (SBlock n :: act) Hcs) as [(r & Hr')|(err & He)]; [|right; exists [], err; apply else_err_cond, He].
    destruct (else_out_tot scs (SBlock n :: act) pb bs m' r Hbs Hk' Hpb Hr') as [(pb' & out & X1 & X2)|X]; [left; eauto 10|right; exact X]. }
  pose proof (fun sc' => IHm body (SBlock n :: act) sc' pb (tl_after m) (tl_before (next_tag bs m')) Hlb Hk' Hfb Hpb) as Body.
  cbn in Hn. destruct Hn as [<-|[<-|[<-|[<-|[]]]]].
  - destruct (falsy_dec v) as [Hv'|Hv'].
    + destruct Else as [(r & pb' & out & X1 & X2 & X3)|(out & err & X)]; [left; exists pb', out; split; [exact X2|eapply io_if_else; eassumption]|right; exists out, err; eapply ie_if_else; eassumption].
    + destruct (Body scs) as [(pb' & out & X1 & X2)|(out & err & X)]; [left; exists pb', out; split; [exact X1|eapply io_if; eassumption]|right; exists out, err; eapply ie_if; eassumption].
  - destruct (falsy_dec v) as [Hv'|Hv'].
    + destruct (Body scs) as [(pb' & out & X1 & X2)|(out & err & X)]; [left; exists pb', out; split; [exact X1|eapply io_unless; eassumption]|right; exists out, err; eapply ie_unless; eassumption].
    + destruct Else as [(r & pb' & out & X1 & X2 & X3)|(out & err & X)]; [left; exists pb', out; split; [exact X2|eapply io_unless_else; eassumption]|right; exists out, err; eapply ie_unless_else; eassumption].
  - assert (Hv' : v = JNull \/ v <> JNull) by (destruct v; [left; reflexivity|right; discriminate..]). destruct Hv' as [->|Hv'].
    + left. exists pb, []. split; [exact Hpb|apply io_with_null, Ba].
    + destruct (Body (mkScope (Some v) [] :: scs)) as [(pb' & out & X1 & X2)|(out & err & X)]; [left; exists pb', out; split; [exact X1|eapply io_with; eassumption]|right; exists out, err; eapply ie_with; eassumption].
  - destruct (iterations_total v) as (its & Hits).
    destruct (rounds_tot its scs (SBlock (lit "each") :: act) pb (tl_after m) (tl_before (next_tag bs m')) body Hlb Hk' Hfb Hpb) as [(pb' & out & X1 & X2)|(out & err & X)];
      [left; exists pb', out; split; [exact X1|eapply io_each; eassumption]|right; exists out, err; eapply ie_each; eassumption].
Qed.
Lemma block_tot scs act pb s e n xs hs m body bs m' : args_ready xs hs -> left_in act <= k -> pb_fine pb -> lsize body < m0 -> fine body -> Forall (fun b => lsize (br_body b) < m0 /\ fine (br_body b)) bs ->
  Forall (fun b => forall x, br_cond b = Some x -> silent w x /\ tame_call w x /\ callx_ok pe x) bs ->
  item_tot scs act pb s e (IBlock false (Call (HdName n) [] xs hs) m body bs m').
Proof.
  intros Hr Hk Hpb Hlb Hfb Hbs Hcs. destruct (assoc n (rg_helpers (w_reg w))) as [f|] eqn:Eh.
  - destruct (cl_helper w Hc n f Eh) as (_ & [Hs|(Hn & Hb)]); [|eapply standard_tot; eassumption].
    destruct (simple_tot true f n xs hs None None scs act Hs Hr) as [(p & H & Hp)|(err & He)]; [|right; exists [], err; eapply ie_block_helper; eassumption].
    destruct (helper_out_tot s e p Hp) as (out & Hout). left. exists pb, out. split; [exact Hpb|eapply io_block_helper; eassumption].
  - destruct (path_dec (w_data w) scs (HdName n) []) as [(v & Hv)|Hv].
    + destruct (rg_block_missing (w_reg w)) as [f|] eqn:Eb.
      * destruct (simple_tot true f (lit "blockHelperMissing") xs hs None (Some (n, v)) scs act (cl_block_missing w Hc f Eb) Hr) as [(p & H & Hp)|(err & He)]; [|right; exists [], err; eapply ie_block_handler; eassumption].
        destruct (helper_out_tot s e p Hp) as (out & Hout). left. exists pb, out. split; [exact Hpb|eapply io_block_handler; eassumption].
      * destruct (IHm body act scs pb (tl_after m) (tl_before (next_tag bs m')) Hlb Hk Hfb Hpb) as [(pb' & out & X1 & X2)|(out & err & X)];
          [left; exists pb', out; split; [exact X1|eapply io_block; eassumption]|right; exists out, err; eapply ie_block; eassumption].
    + destruct (rg_missing (w_reg w)) as [f|] eqn:Em.
      * destruct (simple_tot false f (lit "helperMissing") xs hs None None scs act (cl_missing w Hc f Em) Hr) as [(p & H & Hp)|(err & He)]; [|right; exists [], err; eapply ie_block_missing_handler; eassumption].
        destruct (helper_out_tot s e p Hp) as (out & Hout). left. exists pb, out. split; [exact Hpb|eapply io_block_missing_handler; eassumption].
      * destruct (rg_strict (w_reg w)) eqn:Es; [right; eexists _, _; apply ie_block_strict; assumption|left; exists pb, []; split; [exact Hpb|apply io_block_missing; assumption]].
Qed.
Lemma list_sum_in {A} (f : A -> nat) x l : In x l -> f x <= list_sum (map f l).
Proof. induction l as [|y l IH]; intros H; [contradiction|]. cbn [map list_sum fold_right]. change (fold_right plus 0 (map f l)) with (list_sum (map f l)). destruct H as [->|H]; [lia|]. specialize (IH H). lia. Qed.
Lemma one_tot scs act pb s e i : isize i <= m0 -> left_in act <= k -> item_ok pe i -> tame w i -> pb_fine pb -> item_tot scs act pb s e i.
Proof.
  intros Hm Hk Ho Ht Hpb. destruct i as [x|triple m p c|triple m p c xs hs|x|x|x|esc parts|c m x m'|p c m body bs m'].
  - destruct (stripped_total s e x) as (y & Hy). left. exists pb, y. split; [exact Hpb|apply io_text, Hy].
  - inversion Ho; subst. inversion Ht; subst. destruct p; [apply partial_tot|apply statement_tot]; assumption.
  - inversion Ho as [| |? ? ? ? ? ? O1 O2| | | | | | ]; subst. inversion Ht as [| |? ? ? ? ? ? T1 T2 T3| | | | | | ]; subst. destruct p; [|apply dyn_tot; assumption].
    apply dyn_partial_tot; try assumption; [apply T2; reflexivity|apply args_are_ready; assumption].
  - left. exists pb, []. split; [exact Hpb|constructor].
  - left. exists pb, []. split; [exact Hpb|constructor].
  - destruct (stripped_total s e (lit "{{" ++ x ++ lit "}}")) as (y & Hy). left. exists pb, y. split; [exact Hpb|apply io_escaped, Hy].
  - apply link_tot, Hpb.
  - inversion Ho; subst. apply raw_tot; assumption.
  - inversion Ho as [| | | | | | | |? ? ? ? ? ? O1 O2 O3 O4 O5]; subst. inversion Ht as [| | | | | | | |? ? ? ? ? ? T1 T2 T3]; subst.
    cbn [isize] in Hm. assert (Hfb : fine body) by (split; [exact (ok_all _ _ _ O3)|exact T2]). destruct c as [h t xs hs]. destruct h as [n| | | | | ]; try contradiction O2. destruct t; [|contradiction O2].
    pose proof (call_ready _ _ xs hs O1 T1) as Hr. destruct p; [apply partial_block_tot; assumption|]. apply block_tot; try assumption.
    + unfold lsize. lia.
    + rewrite Forall_forall in *. intros b Hin. split; [|split; [exact (ok_all _ _ _ (proj2 (O4 b Hin)))|exact (proj2 (T3 b Hin))]].
      pose proof (list_sum_in (fun b : branch => S (list_sum (map isize (snd b)))) b bs Hin) as L. cbv beta in L. unfold lsize, br_body. unfold branch in *. lia.
    + rewrite Forall_forall in *. intros b Hin x Hx. destruct (proj1 (T3 b Hin) x Hx). split; [assumption|]. split; [assumption|]. exact (proj1 (O4 b Hin) x Hx).
Qed.
End Step.
Lemma isize_pos i : 1 <= isize i.
Proof. destruct i; cbn [isize]; lia. Qed.
Lemma doc_tot k : forall act d scs pb s e, left_in act < k -> fine d -> pb_fine pb -> items_tot scs act pb s e d.
Proof.
  induction k as [|k IHk]; intros act d scs pb s e Hk; [lia|].
  enough (X : forall m0 l act scs pb s e, lsize l < m0 -> left_in act <= k -> fine l -> pb_fine pb -> items_tot scs act pb s e l) by (intros; eapply X; try eassumption; [apply Nat.lt_succ_diag_r|lia]).
  clear act d scs pb s e Hk. induction m0 as [|m0 IHm]; intros l act scs pb s e Hl Hk Hfl Hpb; [lia|].
  destruct l as [|i l]; [left; exists pb, []; split; [exact Hpb|constructor]|]. destruct Hfl as [F1 F2]. inversion F1; subst. inversion F2; subst.
  unfold lsize in Hl. cbn [map list_sum fold_right] in Hl. change (fold_right plus 0 (map isize l)) with (lsize l) in Hl. pose proof (isize_pos i) as Hi.
  destruct (one_tot k IHk m0 (fun l act scs pb s e H => IHm l act scs pb s e H) scs act pb s (next_before e l) i) as [(pb1 & o & Hpb1 & Ho)|(o & err & He)]; try assumption; [lia| |right; exists o, err; apply err_here, He].
  destruct (IHm l act scs pb1 (after i) e) as [(pb2 & o' & Hpb2 & Ho')|(o' & err & He)]; try assumption; [lia|split; assumption| |].
  - left. exists pb2. eexists. split; [exact Hpb2|eapply out_cons; eassumption].
  - right. exists (o ++ o'), err. eapply err_later; eassumption.
Qed.
Theorem total d scs pb s e act : fine d -> pb_fine pb -> items_tot scs act pb s e d.
Proof. intros H1 H2. eapply (doc_tot (S (left_in act))); [lia|exact H1|exact H2]. Qed.
End Total.
