(** * SemFacts: facts about the source semantics of Spec_Sem: texts of values, whitespace, paths, calls. *)
From Coq Require Import Lia String.
From Verif Require Import Str Lexer Json Ast ErrInfo Parser Render Helpers Registry StrFacts Spec_Lexer Spec_Values ValueFacts Spec_Helpers LookupFacts
  Spec_Render Spec_Blocks Spec_Calls CycleFacts HashFacts Spec_Source SynLex Spec_Sem.
Open Scope nat_scope. Open Scope list_scope.

(** ** Decimal notation *)
Lemma decimal_app a b : decimal_value (a ++ b) = fold_left (fun a c => a * 10 + (c - 48))%N b (decimal_value a).
Proof. unfold decimal_value. apply fold_left_app. Qed.
Lemma decimal_snoc a c : decimal_value (a ++ [c]) = (decimal_value a * 10 + (c - 48))%N.
Proof. rewrite decimal_app. reflexivity. Qed.
Lemma decimal_inj : forall a b, length a = length b -> Forall digit a -> Forall digit b -> decimal_value a = decimal_value b -> a = b.
Proof.
  induction a as [|c a IH] using rev_ind; intros b Hl Ha Hb E.
  - destruct b; [reflexivity|discriminate].
  - destruct b as [|d b _] using rev_ind; [rewrite app_length in Hl; cbn in Hl; lia|].
    rewrite !app_length in Hl. cbn in Hl. apply Forall_app in Ha, Hb. destruct Ha as [Ha Hc], Hb as [Hb Hd]. inversion Hc; inversion Hd; subst. unfold digit in *.
    rewrite !decimal_snoc in E. assert (X : decimal_value a = decimal_value b /\ c = d) by lia. destruct X as [X ->].
    rewrite (IH b); [reflexivity|lia|assumption|assumption|exact X].
Qed.
Lemma decimal_upper s : Forall digit s -> (decimal_value s < 10 ^ N.of_nat (length s))%N.
Proof.
  induction s as [|c s IH] using rev_ind; intros H; [reflexivity|]. apply Forall_app in H. destruct H as [H Hc]. inversion Hc; subst.
  rewrite decimal_snoc, app_length. cbn [length]. replace (N.of_nat (length s + 1)) with (N.succ (N.of_nat (length s))) by lia. rewrite N.pow_succ_r'.
  specialize (IH H). unfold digit in *. lia.
Qed.
Lemma decimal_lower c s : digit c -> c <> 48%N -> Forall digit s -> (10 ^ N.of_nat (length s) <= decimal_value (c :: s))%N.
Proof.
  intros Hc Hn. induction s as [|d s IH] using rev_ind; intros H.
  - unfold digit in *. cbn. unfold chr in *. lia.
  - apply Forall_app in H. destruct H as [H Hd]. inversion Hd; subst. rewrite app_comm_cons, decimal_snoc, app_length. cbn [length].
    replace (N.of_nat (length s + 1)) with (N.succ (N.of_nat (length s))) by lia. rewrite N.pow_succ_r'. specialize (IH H). unfold digit in *. lia.
Qed.
Lemma decimal_len a b : decimal (decimal_value a) b -> decimal (decimal_value a) a -> length a <= length b.
Proof.
  intros (Hb0 & Hb & E & Zb) (Ha0 & Ha & _ & Za). destruct (Nat.le_gt_cases (length a) (length b)) as [H|H]; [exact H|exfalso].
  destruct a as [|c a]; [congruence|]. destruct (N.eq_dec c 48) as [->|Hc].
  - rewrite (Za a eq_refl) in *. destruct b; [congruence|]. cbn in H. lia.
  - inversion Ha; subst. pose proof (decimal_lower c a H2 Hc H3) as L. pose proof (decimal_upper b Hb) as U. cbn [length] in H.
    assert (P : (10 ^ N.of_nat (length b) <= 10 ^ N.of_nat (length a))%N) by (apply N.pow_le_mono_r; lia).
    unfold chr, str in *. lia.
Qed.
Lemma decimal_unique n a b : decimal n a -> decimal n b -> a = b.
Proof.
  intros Ha Hb. assert (Ea : decimal_value a = n) by apply Ha. assert (Eb : decimal_value b = n) by apply Hb.
  apply decimal_inj; [|apply Ha|apply Hb|congruence].
  apply Nat.le_antisymm; apply decimal_len; try rewrite Ea; try rewrite Eb; assumption.
Qed.
Lemma decimal_N_str n : decimal n (N_str n).
Proof.
  destruct (N_str_head n) as (d & r & E & Hd & Hz). split; [rewrite E; discriminate|]. split; [apply all_digits_spec, N_str_digits|].
  split; [rewrite <- digits_val_decimal; apply digits_val_N|]. intros r' Er. rewrite E in Er. injection Er as -> ->. auto.
Qed.
Lemma shown_stringify fstr v s : shown fstr v s -> stringify fstr v = s.
Proof.
  intros H. destruct H; try reflexivity.
  - cbn. apply (decimal_unique n); [apply decimal_N_str|exact H].
  - change (stringify fstr (JNum (NegInt (Z.neg p)))) with ([45%N] ++ N_str (Npos p)). f_equal. apply (decimal_unique (Npos p)); [apply decimal_N_str|exact H].
  - apply (decimal_unique n); [|exact H]. destruct n as [|q]; apply decimal_N_str.
  - change (stringify fstr (JArr l)) with (lit "Array" ++ [91%N] ++ nat_str (length l) ++ [93%N]).
    replace s with (nat_str (length l)); [reflexivity|]. apply (decimal_unique (N.of_nat (length l))); [apply decimal_N_str|exact H].
Qed.

(** ** Whitespace *)
Lemma trim_start_spec s : exists a, s = a ++ trim_start s /\ blank a /\ (forall c r, trim_start s = c :: r -> ~ In c white_space).
Proof.
  induction s as [|c s IH]; [exists []; split; [reflexivity|]; split; [intros c []|discriminate]|]. cbn [trim_start]. destruct (is_ws c) eqn:E.
  - destruct IH as (a & E1 & Ha & Hc). exists (c :: a). split; [cbn; f_equal; exact E1|]. split; [|exact Hc]. intros x [<-|Hx]; [now apply white_ws|apply Ha, Hx].
  - exists []. split; [reflexivity|]. split; [intros x []|]. intros d r H. injection H as <- <-. now apply not_white.
Qed.
Lemma trim_end_spec s : exists b, s = trim_end s ++ b /\ blank b /\ (forall c r, trim_end s = r ++ [c] -> ~ In c white_space).
Proof.
  unfold trim_end. destruct (trim_start_spec (rev s)) as (a & E & Ha & Hc). exists (rev a). split; [rewrite <- rev_app_distr, <- E, rev_involutive; reflexivity|].
  split; [intros c Hx; apply Ha; rewrite in_rev; exact Hx|]. intros c r H. apply (Hc c (rev r)). rewrite <- (rev_involutive (trim_start (rev s))), H, rev_app_distr. reflexivity.
Qed.
Definition trimmed (s e : bool) (x : str) : str := let v := if s then trim_start x else x in if e then trim_end v else v.
Lemma trim_start_app a y : blank a -> (forall c r, y = c :: r -> ~ In c white_space) -> trim_start (a ++ y) = y.
Proof.
  intros Ha Hy. induction a as [|c a IH]; cbn.
  - destruct y as [|c y]; [reflexivity|]. cbn. rewrite (proj1 (not_white c) (Hy c y eq_refl)). reflexivity.
  - rewrite (proj1 (white_ws c) (Ha c (or_introl eq_refl))). apply IH. intros x Hx. apply Ha. right. exact Hx.
Qed.
Lemma blank_trim a : blank a -> trim_start a = [].
Proof. intros H. rewrite <- (app_nil_r a) at 1. apply trim_start_app; [exact H|discriminate]. Qed.
Lemma blank_rev a : blank a -> blank (rev a).
Proof. intros H c Hc. apply H. rewrite in_rev. exact Hc. Qed.
Lemma trim_end_app y b : blank b -> (forall c r, y = r ++ [c] -> ~ In c white_space) -> trim_end (y ++ b) = y.
Proof.
  intros Hb Hy. unfold trim_end. rewrite rev_app_distr, trim_start_app; [apply rev_involutive|apply blank_rev, Hb|].
  intros c r E. apply (Hy c (rev r)). rewrite <- (rev_involutive y), E. reflexivity.
Qed.
Lemma stripped_trim s e x y : stripped s e x y -> trimmed s e x = y.
Proof.
  intros (a & b & -> & Ha & Hb & Hs & He). unfold trimmed. destruct s, e.
  - destruct y as [|c y].
    + cbn [app]. rewrite blank_trim; [reflexivity|]. intros c Hc. apply in_app_iff in Hc. destruct Hc; auto.
    + rewrite trim_start_app by (auto; intros d r Hd; injection Hd as <- _; apply (Hs c y eq_refl)). apply trim_end_app; assumption.
  - rewrite He, app_nil_r. apply trim_start_app; assumption.
  - rewrite Hs. cbn [app]. apply trim_end_app; assumption.
  - rewrite Hs, He, app_nil_r. reflexivity.
Qed.
Lemma trim_stripped s e x : stripped s e x (trimmed s e x).
Proof.
  assert (N : blank []) by (intros c []).
  destruct s, e; unfold trimmed; cbv zeta.
  - destruct (trim_start_spec x) as (a & E & Ha & Hc). destruct (trim_end_spec (trim_start x)) as (b & E2 & Hb & Hd).
    exists a, b. split; [rewrite <- E2; exact E|]. split; [exact Ha|]. split; [exact Hb|]. split; [|exact Hd].
    intros c r Er. apply (Hc c (r ++ b)). rewrite E2, Er. reflexivity.
  - destruct (trim_start_spec x) as (a & E & Ha & Hc). exists a, []. rewrite app_nil_r. auto.
  - destruct (trim_end_spec x) as (b & E2 & Hb & Hd). exists [], b. auto.
  - exists [], []. rewrite app_nil_r. auto.
Qed.

(** ** Paths *)
Lemma path_lookup src p h t data scs : path_is src p h t ->
  exists r, lookup src p data scs = Some r /\ forall v, r = Some v <-> path_value data scs h t v.
Proof.
  intros (Hc & Ha & Hp & He & Hr & Hl & Hs & _). unfold lookup. rewrite Ha. destruct h as [n| |s|k n|n|n]; cbv iota.
  6: { exists None. split; [reflexivity|]. intros v. split; [discriminate|]. intros H; inversion H. }
  all: rewrite Hc; cbv iota; eexists; (split; [reflexivity|]); intros v; rewrite Hr; cbv iota; try rewrite He; cbv iota; try rewrite Hl; cbv iota; try rewrite Hp; cbv iota.
  - unfold path_parts. cbn [head_parts app]. change (0 <? 0)%N with false. cbv iota. rewrite find_in_scopes_spec. split; [apply pv_name|]. intros H. inversion H; subst. assumption.
  - pose proof (comp_values_length _ _ _ Hc) as L. rewrite L. unfold path_parts. cbn [head_parts app length]. rewrite map_length. destruct t as [|x t].
    + cbn. split.
      * intros H. injection H as <-. apply pv_this, this_value_spec. reflexivity.
      * intros H. inversion H; subst.
        -- f_equal. apply this_value_spec. assumption.
        -- match goal with X : follow _ _ _ |- _ => inversion X end.
    + cbn [length Nat.eqb tl]. rewrite find_parts_spec. split.
      * intros H. eapply pv_this_in; [apply this_value_spec; reflexivity|exact H].
      * intros H. inversion H; subst. match goal with X : this_is _ _ _ |- _ => apply this_value_spec in X; rewrite X end. assumption.
  - pose proof (comp_values_length _ _ _ Hc) as L. rewrite L. unfold path_parts. cbn [head_parts app length Nat.eqb tl]. rewrite find_parts_spec. split.
    + intros H. eapply pv_dot; [apply this_value_spec; reflexivity|exact H].
    + intros H. inversion H; subst. match goal with X : this_is _ _ _ |- _ => apply this_value_spec in X; rewrite X end. assumption.
  - unfold path_parts. cbn [head_parts app]. rewrite Nat2N.id.
    destruct k as [|k].
    + change (0 <? N.of_nat 0)%N with false. cbv iota. rewrite find_in_scopes_spec. split; [apply pv_up_none|]. intros H. inversion H; subst. assumption.
    + replace (0 <? N.of_nat (S k))%N with true by (symmetry; apply N.ltb_lt; lia). cbv iota.
      assert (X : (match nth_error scs (S k) with
        | Some s => find_in_scope (n :: segs t) s
        | None => if S k =? length scs then find_parts (n :: segs t) data else None end) = Some v <-> at_level (n :: segs t) data scs (S k) v).
      { unfold at_level. destruct (nth_error scs (S k)) as [s|] eqn:En.
        - rewrite find_in_scope_spec. split; [intros H; left; eauto|]. intros [(s' & Es & H)|[E _]]; [congruence|].
          assert (S k < length scs) by (apply nth_error_Some; congruence). lia.
        - destruct (Nat.eqb_spec (S k) (length scs)) as [E|E].
          + rewrite find_parts_spec. split; [intros H; right; auto|]. intros [(s' & Es & H)|[_ H]]; [discriminate|exact H].
          + split; [discriminate|]. intros [(s' & Es & H)|[E' _]]; [discriminate|contradiction]. }
      split; [intros H; apply pv_up, X, H|]. intros H. inversion H; subst. apply X. assumption.
  - destruct (streq n (lit "root")) eqn:E.
    + apply streq_eq in E. subst n. cbn [head_parts app path_parts tl]. rewrite find_parts_spec. split; [apply pv_root|]. intros H. inversion H; subst; [assumption|exfalso; match goal with Y : _ <> _ |- _ => apply Y; reflexivity end].
    + assert (n <> lit "root") by (intros ->; rewrite streq_refl in E; discriminate). unfold path_parts. cbn [head_parts]. destruct scs as [|s ss].
      * split; [discriminate|]. intros X; inversion X; subst; [contradiction|discriminate].
      * rewrite find_parts_spec. split; [intros X; eapply pv_local; [reflexivity|assumption|exact X]|]. intros X; inversion X; subst; [contradiction|].
        match goal with Y : _ :: _ = _ :: _ |- _ => injection Y as <- <- end. assumption.
Qed.

(** ** Maps *)
Lemma insert_last k v (l : list (str * json)) : Forall (fun a => strcmp (fst a) k = Lt) l -> obj_insert k v l = l ++ [(k, v)].
Proof.
  induction l as [|[k' v'] l IH]; intros H; [reflexivity|]. inversion H; subst. cbn [obj_insert app]. cbn [fst] in H2. rewrite (strcmp_anti k' k), H2. cbn [CompOpp].
  rewrite IH by assumption. reflexivity.
Qed.
Definition put_all (l : list (str * json)) (acc : list (str * json)) : list (str * json) :=
  fold_left (fun m kv => obj_insert (fst kv) (snd kv) m) l acc.
Lemma put_sorted l : forall acc, key_sorted (acc ++ l) -> put_all l acc = acc ++ l.
Proof.
  unfold key_sorted. induction l as [|[k v] l IH]; intros acc H; cbn [put_all fold_left fst snd]; [rewrite app_nil_r; reflexivity|].
  rewrite insert_last.
  - change (put_all l (acc ++ [(k, v)]) = acc ++ (k, v) :: l). rewrite IH; rewrite <- app_assoc; [reflexivity|exact H].
  - clear IH. induction acc as [|a acc IH]; constructor; inversion H; subst.
    + match goal with X : Forall _ (acc ++ _) |- _ => apply Forall_app in X; destruct X as [_ X]; inversion X; subst; assumption end.
    + apply IH. assumption.
Qed.
Lemma put_perm l l' : Permutation l l' -> NoDup (map fst l) -> forall acc, put_all l acc = put_all l' acc.
Proof.
  induction 1 as [|x l l' H IH|x y l|l1 l2 l3 H1 IH1 H2 IH2]; intros Hn acc; cbn [put_all fold_left] in *.
  - reflexivity.
  - inversion Hn; subst. apply IH. assumption.
  - rewrite insert_comm; [reflexivity|]. inversion Hn as [|? ? Hi]; subst. intros E. apply Hi. left. exact E.
  - rewrite IH1 by assumption. apply IH2. eapply Permutation_NoDup; [apply Permutation_map; eassumption|assumption].
Qed.
Lemma sorted_nodup (l : list (str * json)) : key_sorted l -> NoDup (map fst l).
Proof.
  induction 1 as [|a l H IH Hf]; cbn; constructor; [|exact IH]. rewrite in_map_iff. intros (b & E & Hb). rewrite Forall_forall in Hf. specialize (Hf b Hb).
  rewrite E, strcmp_refl in Hf. discriminate Hf.
Qed.
Lemma map_of_put m pairs l : map_of m pairs -> Permutation pairs l -> put_all l [] = m.
Proof.
  intros [Hs Hp] Hl. rewrite <- (put_perm m l); [apply (put_sorted m []); exact Hs|eapply Permutation_trans; eassumption|apply sorted_nodup, Hs].
Qed.

(** ** Calls *)
Definition at_state (scs : list scope) (act : list site) (st : rst) : Prop :=
  r_local st = [] /\ r_scopes st = scs /\ r_stack st = act.
Lemma at_push scs act st x : at_state scs act st -> at_state scs (x :: act) (up_stack (x :: r_stack st) st).
Proof. intros (H1 & H2 & H3). unfold at_state. cbn. rewrite H3. auto. Qed.
Lemma pop_push x st : pop_stack (up_stack (x :: r_stack st) st) = st.
Proof. destruct st; reflexivity. Qed.

Section Calls.
Variables (w : world) (en : env).
Hypothesis Ep : en_plat en = w_plat w.
Hypothesis Er : en_reg en = w_reg w.
Hypothesis Ed : en_root en = w_data w.
Hypothesis Hf : fits w.
Notation pe := (pl_penv (w_plat w)).

Lemma look src p h t scs act st : path_is src p h t -> at_state scs act st ->
  exists r, mlookup en src p st = ROk r st /\ forall v, r = Some v <-> path_value (w_data w) scs h t v.
Proof.
  intros Hp (_ & Hs & _). destruct (path_lookup src p h t (w_data w) scs Hp) as (r & E & H). exists r. split; [|exact H].
  unfold mlookup. rewrite bind_get, Ed, Hs, E. reflexivity.
Qed.
Lemma look_some src p h t scs act st v : path_is src p h t -> at_state scs act st -> path_value (w_data w) scs h t v -> mlookup en src p st = ROk (Some v) st.
Proof. intros Hp Hs Hv. destruct (look src p h t scs act st Hp Hs) as (r & E & H). apply H in Hv. subst r. exact E. Qed.
Lemma look_none src p h t scs act st : path_is src p h t -> at_state scs act st -> no_value (w_data w) scs h t -> mlookup en src p st = ROk None st.
Proof. intros Hp Hs Hv. destruct (look src p h t scs act st Hp Hs) as (r & E & H). destruct r as [v|]; [|exact E]. exfalso. apply (Hv v), H. reflexivity. Qed.

Definition arg_runs (act : list site) (scs : list scope) (src : str) (p : param) (v : json) : Prop :=
  exists n, forall k st, n <= k -> at_state scs act st -> exists m, eval_param (tie k) en src p st = ROk (v, m) st.
Definition args_run (act : list site) (scs : list scope) (src : str) (ps : list param) (vs : list json) : Prop :=
  exists n, forall k st i, n <= k -> at_state scs act st -> exists m, arguments (tie k) en src i ps st = ROk (vs, m) st.
Definition hash_runs (act : list site) (scs : list scope) (src : str) (ps : list (str * param)) (pairs : list (str * json)) : Prop :=
  exists n, forall k, n <= k -> Forall2 (fun kp kv => fst kp = fst kv /\ forall st, at_state scs act st -> exists m, eval_param (tie k) en src (snd kp) st = ROk (snd kv, m) st) ps pairs.
Definition call_runs (act : list site) (scs : list scope) (src : str) (c : call) (v : option json) : Prop :=
  exists n, forall k st, n <= k -> at_state scs act st -> call_ (tie k) en src c st = ROk v st.

Lemma hash_go_runs scs act src k ps pairs : Forall2 (fun kp kv => fst kp = fst kv /\ forall st, at_state scs act st -> exists m, eval_param (tie k) en src (snd kp) st = ROk (snd kv, m) st) ps pairs ->
  forall st acc, at_state scs act st -> exists m, hash_go (tie k) en src ps acc st = ROk (put_all pairs acc, m) st.
Proof.
  induction 1 as [|[a p] [b v] ps pairs [Ek Hv] H IH]; intros st acc Hs; cbn [hash_go]; [eexists; reflexivity|]. cbn [fst snd] in *. subst b.
  destruct (Hv st Hs) as (m & E). rewrite (bind_ok _ _ _ _ _ E). cbn [fst snd]. destruct (IH st (obj_insert a v acc) Hs) as (m' & E'). rewrite (bind_ok _ _ _ _ _ E'). eexists. reflexivity.
Qed.
Lemma hash_of_runs scs act src c pairs ps : hash_runs act scs src (c_params c) pairs -> map_of ps pairs ->
  exists n, forall k st, n <= k -> at_state scs act st -> exists m, hash (tie k) en src c st = ROk (ps, m) st.
Proof.
  intros (n & H) Hm. exists n. intros k st Hk Hs. specialize (H k Hk). unfold hash. rewrite Ep.
  destruct (Permutation_Forall2 (Permutation_sym (fit_order w Hf src c)) H) as (pairs' & Hp & H').
  destruct (hash_go_runs _ _ _ _ _ _ H' st [] Hs) as (m & E). exists m. rewrite E, (map_of_put _ _ _ Hm Hp). reflexivity.
Qed.
(** running a helper by name *)
Definition target_is (tg : htarget) (f : helper) : Prop :=
  (exists n, tg = ByName n /\ assoc n (rg_helpers (w_reg w)) = Some f) \/ tg = ByRef f.
Lemma invoke_runs scs act src name tg f c content text prop vs pairs ps s :
  s = match content with Some _ => SBlock name | None => SHelper name end ->
  target_is tg f -> count_site s act < 32 ->
  args_run (s :: act) scs src (c_args c) vs -> hash_runs (s :: act) scs src (c_params c) pairs -> map_of ps pairs ->
  exists n, forall k st, n <= k -> at_state scs act st ->
  exists ctx, context_is ctx c src name vs ps text prop
    /\ invoke (tie k) en src name tg c content text prop st
       = (let* v := run (tie k) en (f ctx content) in upd pop_stack ;; ret v) (up_stack (s :: r_stack st) st).
Proof.
  intros Es Hn Hc (n1 & Ha) Hh Hm. destruct (hash_of_runs _ _ _ _ _ _ Hh Hm) as (n2 & Hh').
  exists (n1 + n2). intros k st Hk Hs. pose proof (at_push _ _ _ s Hs) as Hs'.
  destruct (Ha k _ 0 ltac:(lia) Hs') as (ma & Ea). destruct (Hh' k _ ltac:(lia) Hs') as (mh & Eh).
  exists (mkHctx c src name vs ps text prop (ma ++ mh)). split; [unfold context_is; auto 10|].
  unfold invoke. cbv zeta. rewrite <- Es. rewrite bind_get. replace (stack_max <=? _) with false.
  2: { symmetry. apply Nat.leb_gt. destruct Hs as (_ & _ & ->). exact Hc. }
  rewrite bind_upd, (bind_ok _ _ _ _ _ Ea), (bind_ok _ _ _ _ _ Eh), bind_get. cbn [fst snd].
  destruct Hn as [(nm & -> & Hn)| ->]; [|reflexivity]. destruct Hs' as (Hl & _). rewrite Hl. cbn [assoc]. rewrite Er, Hn. reflexivity.
Qed.
Lemma sees_at scs act st : at_state scs act st -> sees w scs en st.
Proof. intros (_ & Hs & _). unfold sees. rewrite Ep, Er, Ed. auto. Qed.
Lemma acts_run scs act f n vs ps text prop blk p ctx c src t : acts w scs f n vs ps text prop blk p -> context_is ctx c src n vs ps text prop -> (t <> None <-> blk = true) ->
  forall K st, at_state scs act st -> run K en (f ctx t) st = run K en p st.
Proof. intros H (_ & _ & H1 & H2 & H3 & H4 & H5) Hb K st Hs. apply H; try assumption. exact (sees_at _ _ _ Hs). Qed.
Lemma gives_run scs act f n vs ps v ctx c src : gives w scs f n vs ps v -> context_is ctx c src n vs ps None None ->
  forall K st, at_state scs act st -> run K en (f ctx None) st = ROk v st.
Proof. intros H Hx K st Hs. assert (Hb : @None tpl <> None <-> false = true) by (split; [congruence|discriminate]). rewrite (acts_run _ _ _ _ _ _ _ _ _ _ _ _ _ _ H Hx Hb K st Hs). reflexivity. Qed.

Lemma names_simple src p h t n : path_is src p h t -> names h t n -> pa_explicit p = false /\ path_is_simple p = true /\ path_str src p = Some n.
Proof.
  intros (Hc & Ha & Hp & He & Hr & Hl & Hs & Es) (-> & -> & Hh). rewrite He, Hs. destruct h; try contradiction; (split; [reflexivity|]; split; [reflexivity|]; rewrite Es; reflexivity).
Qed.
Lemma simple_names src p h t : path_is src p h t -> path_is_simple p = true -> exists n, names h t n /\ path_str src p = Some n.
Proof.
  intros (Hc & Ha & Hp & He & Hr & Hl & Hs & Es) E. rewrite Hs in E. destruct h; try discriminate E; destruct t; try discriminate E.
  - exists (path_text (HdName w0) []). split; [split; [reflexivity|]; split; [reflexivity|exact I]|]. rewrite Es. reflexivity.
  - exists (path_text (HdUp k w0) []). split; [split; [reflexivity|]; split; [reflexivity|exact I]|]. rewrite Es. reflexivity.
  - exists (path_text (HdAbs w0) []). split; [split; [reflexivity|]; split; [reflexivity|exact I]|]. rewrite Es. reflexivity.
Qed.
Lemma no_helper_at scs act st n : at_state scs act st -> assoc n (rg_helpers (w_reg w)) = None -> has_helper en n st = false.
Proof. intros (Hl & _) H. unfold has_helper. rewrite Hl, Er. cbn [assoc]. rewrite H. reflexivity. Qed.
Lemma a_helper_at scs act st n f : at_state scs act st -> assoc n (rg_helpers (w_reg w)) = Some f -> has_helper en n st = true.
Proof. intros (Hl & _) H. unfold has_helper. rewrite Hl, Er. cbn [assoc]. rewrite H. reflexivity. Qed.

(** a statement that calls a helper or the handler for missing variables *)
Lemma called_runs scs act src h t n f pt cd c x : called w scs h t n f -> call_is Loose pe src pt cd c x -> (exists xs hs, x = Call h t xs hs) ->
  forall vs pairs ps, count_site (SHelper n) act < 32 ->
  args_run (SHelper n :: act) scs src (c_args c) vs -> hash_runs (SHelper n :: act) scs src (c_params c) pairs -> map_of ps pairs ->
  exists N, forall k st, N <= k -> at_state scs act st ->
  exists ctx, context_is ctx c src n vs ps None None
    /\ call_ (tie k) en src c st = (let* v := run (tie k) en (f ctx None) in upd pop_stack ;; ret v) (up_stack (SHelper n :: r_stack st) st).
Proof.
  intros Hcl Hc (xs & hs & ->) vs pairs ps Hct Ha Hh Hm. inversion Hc as [? ? ? ? p ? ? ? ? ? ? ? Hp Hxs Hhs]; subst.
  match goal with |- context [context_is _ ?cc] => set (c := cc) in * end. destruct Hcl as [n f Hn Hf'|n f Hn Hno Hv Hf'].
  - destruct (names_simple _ _ _ _ _ Hp Hn) as (E1 & E2 & E3).
    destruct (invoke_runs scs act src n (ByName n) f c None None None vs pairs ps (SHelper n) eq_refl (or_introl (ex_intro _ n (conj eq_refl Hf'))) Hct Ha Hh Hm) as (N & H).
    exists N. intros k st Hk Hs. destruct (H k st Hk Hs) as (ctx & Hx & E). exists ctx. split; [exact Hx|]. rewrite <- E.
    unfold call_, c. cbn [c_target]. rewrite E1, E2, E3. cbn [need]. rewrite bind_ret, bind_get, (a_helper_at _ _ _ _ _ Hs Hf'). reflexivity.
  - destruct (names_simple _ _ _ _ _ Hp Hn) as (E1 & E2 & E3).
    destruct (invoke_runs scs act src (lit "helperMissing") (ByRef f) f c None None None vs pairs ps (SHelper (lit "helperMissing")) eq_refl (or_intror eq_refl) Hct Ha Hh Hm) as (N & H).
    exists N. intros k st Hk Hs. destruct (H k st Hk Hs) as (ctx & Hx & E). exists ctx. split; [exact Hx|]. rewrite <- E.
    unfold call_, c. cbn [c_target]. rewrite E1, E2, E3. cbn [need]. rewrite bind_ret, bind_get, (no_helper_at _ _ _ _ Hs Hno), (bind_ok _ _ _ _ _ (look_none _ _ _ _ _ _ _ Hp Hs Hv)), Er, Hf'. reflexivity.
Qed.
Scheme arg_value_mut := Minimality for arg_value Sort Prop
  with args_value_mut := Minimality for args_value Sort Prop
  with hash_value_mut := Minimality for hash_value Sort Prop
  with call_value_mut := Minimality for call_value Sort Prop.
Combined Scheme value_mut from arg_value_mut, args_value_mut, hash_value_mut, call_value_mut.

Theorem values_run scs : forall act,
  (forall x v, arg_value w scs act x v -> forall src p, param_is Loose pe src p x -> arg_runs act scs src p v)
  /\ (forall xs vs, args_value w scs act xs vs -> forall src ps, Forall2 (param_is Loose pe src) ps xs -> args_run act scs src ps vs)
  /\ (forall hs pairs, hash_value w scs act hs pairs -> forall src ps,
        Forall2 (fun kp kv => fst kp = fst kv /\ param_is Loose pe src (snd kp) (snd kv)) ps hs -> hash_runs act scs src ps pairs)
  /\ (forall x v, call_value w scs act x v -> forall src pt cd c, call_is Loose pe src pt cd c x -> call_runs act scs src c v).
Proof.
  intros act0. apply (value_mut w scs (fun act x v => forall src p, param_is Loose pe src p x -> arg_runs act scs src p v)
    (fun act xs vs => forall src ps, Forall2 (param_is Loose pe src) ps xs -> args_run act scs src ps vs)
    (fun act hs pairs => forall src ps, Forall2 (fun kp kv => fst kp = fst kv /\ param_is Loose pe src (snd kp) (snd kv)) ps hs -> hash_runs act scs src ps pairs)
    (fun act x v => forall src pt cd c, call_is Loose pe src pt cd c x -> call_runs act scs src c v)); clear act0.
  - intros act sg l src p H. inversion H; subst. exists 0. intros k st _ _. eexists. reflexivity.
  - intros act x src p H. inversion H; subst. exists 0. intros k st _ _. eexists. reflexivity.
  - intros act s n E src p H. inversion H; subst. rewrite E in *. match goal with X : Some _ = Some _ |- _ => injection X as -> end. exists 0. intros k st _ _. eexists. reflexivity.
  - intros act b src p H. inversion H; subst. exists 0. intros k st _ _. eexists. reflexivity.
  - intros act src p H. inversion H; subst. exists 0. intros k st _ _. eexists. reflexivity.
  - intros act h t v Hv src p H. inversion H as [| | | | |p0 h0 t0 H1|]; subst. exists 0. intros k st _ Hs. cbn [eval_param]. rewrite (bind_ok _ _ _ _ _ (look_some _ _ _ _ _ _ _ _ H1 Hs Hv)). eexists. reflexivity.
  - intros act h t Hv src p H. inversion H as [| | | | |p0 h0 t0 H1|]; subst. exists 0. intros k st _ Hs. cbn [eval_param]. rewrite (bind_ok _ _ _ _ _ (look_none _ _ _ _ _ _ _ H1 Hs Hv)).
    destruct H1 as (_ & _ & _ & _ & _ & _ & _ & Es). rewrite Es. eexists. reflexivity.
  - intros act c v Hv IH src p H. inversion H as [| | | | | |c0 x0 u0 H2 H3]; subst. destruct (IH _ _ _ _ H2) as (n & Hn). exists (S n). intros k st Hk Hs. cbn [eval_param]. destruct k as [|k]; [lia|].
    assert (E : k_stmt (tie (S k)) en src c0 st = ROk (Some v) st).
    { cbn [tie k_stmt]. unfold stmt_. replace (c_partial c0) with false by (inversion H2; reflexivity). apply Hn; [lia|exact Hs]. }
    rewrite (bind_ok _ _ _ _ _ E). eexists. reflexivity.
  - intros act c Hv IH src p H. inversion H as [| | | | | |c0 x0 u0 H2 H3]; subst. destruct (IH _ _ _ _ H2) as (n & Hn). exists (S n). intros k st Hk Hs. cbn [eval_param]. destruct k as [|k]; [lia|].
    assert (E : k_stmt (tie (S k)) en src c0 st = ROk None st).
    { cbn [tie k_stmt]. unfold stmt_. replace (c_partial c0) with false by (inversion H2; reflexivity). apply Hn; [lia|exact Hs]. }
    rewrite (bind_ok _ _ _ _ _ E), H3. eexists. reflexivity.
  - intros act src ps H. inversion H; subst. exists 0. intros k st i _ _. eexists. reflexivity.
  - intros act x xs v vs _ IH1 _ IH2 src ps H. inversion H as [|p0 x0 ps0 xs0 H2 H4]; subst. destruct (IH1 _ _ H2) as (n1 & H1'). destruct (IH2 _ _ H4) as (n2 & H2').
    exists (n1 + n2). intros k st i Hk Hs. cbn [arguments]. destruct (H1' k st ltac:(lia) Hs) as (m & E). rewrite (bind_ok _ _ _ _ _ E).
    destruct (H2' k st (S i) ltac:(lia) Hs) as (m' & E'). rewrite (bind_ok _ _ _ _ _ E'). eexists. reflexivity.
  - intros act src ps H. inversion H; subst. exists 0. intros k _. constructor.
  - intros act a x xs v ps _ IH1 _ IH2 src qs H. inversion H as [|[a' p] ? ? ? [Ek Hp] Hq]; subst. cbn [fst snd] in *. subst a'. destruct (IH1 _ _ Hp) as (n1 & H1'). destruct (IH2 _ _ Hq) as (n2 & H2').
    exists (n1 + n2). intros k Hk. constructor; [|apply H2'; lia]. cbn [fst snd]. split; [reflexivity|]. intros st Hs. apply H1'; [lia|exact Hs].
  - intros act h t xs hs n f vs pairs ps v Hn Hc Ha IHa Hp IHp Hm Hg src pt cd c Hc'. inversion Hc'; subst.
    match goal with |- call_runs _ _ _ ?cc _ => set (c := cc) in * end.
    destruct (called_runs scs act src h t n f pt cd c (Call h t xs hs) Hn Hc' (ex_intro _ xs (ex_intro _ hs eq_refl)) vs pairs ps Hc (IHa _ _ ltac:(eassumption)) (IHp _ _ ltac:(eassumption)) Hm) as (m & H).
    exists m. intros k st Hk Hs. destruct (H k st Hk Hs) as (ctx & Hx & E). rewrite E. rewrite (bind_ok _ _ _ _ _ (gives_run _ _ _ _ _ _ _ _ _ _ Hg Hx (tie k) _ (at_push _ _ _ _ Hs))).
    rewrite bind_upd, pop_push. reflexivity.
  - intros act h t xs hs v Hn Hv src pt cd c Hc'. inversion Hc'; subst. exists 0. intros k st _ Hs. unfold call_. cbn [c_target].
    match goal with X : path_is _ _ _ _ |- _ => rename X into Hp end. pose proof (look_some _ _ _ _ _ _ _ _ Hp Hs Hv) as E.
    destruct (pa_explicit p) eqn:E1; [exact E|]. destruct (path_is_simple p) eqn:E2; [|unfold resolve; rewrite (bind_ok _ _ _ _ _ E); reflexivity].
    destruct (simple_names _ _ _ _ Hp) as (n & Hnm & En); [exact E2|]. rewrite En. cbn [need]. rewrite bind_ret, bind_get, (no_helper_at _ _ _ _ Hs (Hn n Hnm)), (bind_ok _ _ _ _ _ E). reflexivity.
  - intros act h t xs hs Hn Hv Hmiss src pt cd c Hc'. inversion Hc'; subst. exists 0. intros k st _ Hs. unfold call_. cbn [c_target].
    match goal with X : path_is _ _ _ _ |- _ => rename X into Hp end. pose proof (look_none _ _ _ _ _ _ _ Hp Hs Hv) as E.
    destruct (pa_explicit p) eqn:E1; [exact E|].
    destruct Hmiss as [Hx|[(sg & Hx)|[Hst Hms]]]; [subst h; destruct Hp as (_ & _ & _ & X & _); congruence|subst h; destruct Hp as (_ & _ & _ & X & _); congruence|].
    destruct (path_is_simple p) eqn:E2; [|unfold resolve; rewrite (bind_ok _ _ _ _ _ E), Er, Hst; reflexivity].
    destruct (simple_names _ _ _ _ Hp E2) as (n & Hnm & En). pose proof (Hn n Hnm) as Hnn. rewrite En. cbn [need]. rewrite bind_ret, bind_get, (no_helper_at _ _ _ _ Hs Hnn), (bind_ok _ _ _ _ _ E), Er, Hms, Hst by eauto. reflexivity.
Qed.
End Calls.
Lemma ho_prints w s e x esc y : stripped s e x y -> helper_out w s e (prints x esc) (if esc then written (rg_escape (w_reg w)) y else y).
Proof. intros H. pose proof (ho_writes w s e x esc y [] None [] H (ho_value w s e None)) as P. rewrite app_nil_r in P. exact P. Qed.
