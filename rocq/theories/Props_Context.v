(** * Props_Context: what a helper sees of its call (C59). *)
From Coq Require Import Lia String Permutation.
From Verif Require Import Str Lexer Json Ast ErrInfo Parser Render Helpers Registry Tests Spec_Ast Spec_Values Spec_Helpers Spec_Render Spec_Blocks Spec_Calls
  Spec_Context Spec_Source SynPath SynLayout StrFacts ValueFacts TreeFacts DocFacts DocProps TermFacts HashFacts Props_Values Props_Calls Props_Source.
Open Scope nat_scope. Open Scope list_scope.

(** ** Missing arguments *)
Lemma values_null K en src ps st vs ms s : values_of K en src ps st vs ms s ->
  length vs = length ps /\ length ms = length ps /\ forall i t, nth_error ms i = Some (Some t) -> nth_error vs i = Some JNull.
Proof.
  induction 1 as [st|p ps st v m s1 vs ms s Hv H (I1 & I2 & I3)]; [split; [|split]; auto; intros [|i] t; discriminate|].
  split; [cbn; lia|]. split; [cbn; lia|]. intros [|i] t E; cbn in *; [|eapply I3; exact E]. injection E as ->. inversion Hv; reflexivity.
Qed.
Lemma sees_args_ok K en src c st s ctx name args params text prop ms mh : values_of K en src (c_args c) st args ms s ->
  context_is ctx c src name args params text prop -> remembers ctx ms mh -> sees_arguments ctx src c args ms.
Proof.
  intros Ha (X1 & X2 & X3 & X4 & X5 & X6 & X7) [R1 _]. destruct (values_null _ _ _ _ _ _ _ _ Ha) as (L1 & L2 & N).
  assert (G : forall i, ctx_get ctx i = nth_error args i) by (intros i; unfold ctx_get; rewrite X4; reflexivity).
  split; [|split; [|split]].
  - intros i v Hv Hm. assert (M : ctx_missing ctx i = None) by (apply (proj2 (R1 i)); intros t; rewrite Hm; discriminate). rewrite G, Hv.
    split; [reflexivity|]. split; [exact M|]. unfold ctx_get_fallback. rewrite G, Hv, M. destruct v; reflexivity.
  - intros i t Hm. assert (M : ctx_missing ctx i = Some (JStr t)) by (apply (proj1 (R1 i)); exact Hm).
    unfold ctx_get_fallback. rewrite G, (N _ _ Hm), M. auto.
  - intros i Hi. assert (M : ctx_missing ctx i = None).
    { apply (proj2 (R1 i)). intros t H. assert (X : nth_error ms i <> None) by congruence. apply nth_error_Some in X. lia. }
    assert (G0 : nth_error args i = None) by (apply nth_error_None; lia).
    unfold ctx_get_fallback, ctx_raw. rewrite G, G0, M, X1. repeat split. replace (nth_error (c_args c) i) with (@None param) by (symmetry; apply nth_error_None; exact Hi). reflexivity.
  - intros i a t Hi Hp. unfold raw_is, ctx_raw. rewrite X1, X2, Hi, Hp. reflexivity.
Qed.
(** ** Hash arguments *)
Lemma combine_in {A B} (ks : list A) : forall (ms : list B) k m, In (k, m) (combine ks ms) -> exists i, nth_error ks i = Some k /\ nth_error ms i = Some m.
Proof.
  induction ks as [|k0 ks IH]; intros [|m0 ms] k m H; try contradiction. destruct H as [H|H].
  - injection H as -> ->. exists 0. split; reflexivity.
  - destruct (IH _ _ _ H) as (i & H1 & H2). exists (S i). split; assumption.
Qed.
Lemma insert_get {A} k (v : A) l : assoc k (obj_insert k v l) = Some v.
Proof.
  induction l as [|[k' v'] l IH]; cbn [obj_insert]; [cbn; rewrite streq_refl; reflexivity|].
  destruct (strcmp k k') eqn:E; cbn [assoc]; rewrite ?streq_refl; try reflexivity.
  destruct (streq k k') eqn:E'; [|exact IH]. apply streq_eq in E'. subst k'. rewrite strcmp_refl in E. discriminate E.
Qed.
Lemma insert_other {A} n k (v : A) l : n <> k -> assoc n (obj_insert k v l) = assoc n l.
Proof.
  intros H. assert (Hn : streq n k = false) by (destruct (streq n k) eqn:E; [apply streq_eq in E; contradiction | reflexivity]).
  induction l as [|[k' v'] l IH]; cbn [obj_insert]; [cbn; rewrite Hn; reflexivity|].
  destruct (strcmp k k') eqn:E; cbn [assoc]; rewrite ?Hn, ?IH; try reflexivity.
  apply strcmp_eq in E. subst k'. rewrite Hn. reflexivity.
Qed.
Lemma fold_out k : forall ks (vs : list json) acc, ~ In k ks -> assoc k (fold_left (fun m kv => obj_insert (fst kv) (snd kv) m) (combine ks vs) acc) = assoc k acc.
Proof.
  induction ks as [|k0 ks IH]; intros [|v0 vs] acc H; try reflexivity. cbn [combine fold_left fst snd]. rewrite IH by (intros X; apply H; right; exact X).
  apply insert_other. intros ->. apply H. left. reflexivity.
Qed.
Lemma fold_in k v : forall ks (vs : list json) acc i, NoDup ks -> nth_error ks i = Some k -> nth_error vs i = Some v ->
  assoc k (fold_left (fun m kv => obj_insert (fst kv) (snd kv) m) (combine ks vs) acc) = Some v.
Proof.
  induction ks as [|k0 ks IH]; intros [|v0 vs] acc [|i] Hn Hk Hv; try discriminate; cbn [combine fold_left fst snd nth_error] in *; inversion Hn as [|? ? N1 N2]; subst.
  - injection Hk as ->. injection Hv as ->. rewrite fold_out by assumption. apply insert_get.
  - apply (IH _ _ i); assumption.
Qed.
Lemma combine_nth {A B} : forall (ks : list A) (ms : list B) i k m, nth_error ks i = Some k -> nth_error ms i = Some m -> In (k, m) (combine ks ms).
Proof.
  induction ks as [|k0 ks IH]; intros [|m0 ms] [|i] k m H1 H2; try discriminate; cbn in *; [left; congruence|]. right. apply (IH _ i); assumption.
Qed.
Lemma nodup_at {A} (l : list A) : NoDup l -> forall i j x, nth_error l i = Some x -> nth_error l j = Some x -> i = j.
Proof. intros H i j x Hi Hj. apply (proj1 (NoDup_nth_error l) H); [apply nth_error_Some; congruence | congruence]. Qed.
Lemma in_assoc {A} k (v : A) l : NoDup (map fst l) -> In (k, v) l -> assoc k l = Some v.
Proof.
  induction l as [|[k' v'] l IH]; intros N H; [contradiction|]. cbn in *. inversion N as [|? ? N1 N2]; subst. destruct H as [H|H].
  - injection H as -> ->. rewrite streq_refl. reflexivity.
  - destruct (streq k k') eqn:E; [|apply IH; assumption]. apply streq_eq in E. subst k'. contradiction N1. apply (in_map fst) in H. exact H.
Qed.
Lemma sees_hash_ok K en src c st s ctx name args text prop ms vs hs : Permutation (pl_order (en_plat en) src c) (c_params c) -> NoDup (map fst (c_params c)) ->
  let order := pl_order (en_plat en) src c in
  values_of K en src (map snd order) st vs hs s ->
  context_is ctx c src name args (fold_left (fun m kv => obj_insert (fst kv) (snd kv) m) (combine (map fst order) vs) []) text prop ->
  remembers ctx ms (combine (map fst order) hs) -> sees_hash ctx src order vs hs.
Proof.
  intros Hp Hnd order Hv (X1 & X2 & X3 & X4 & X5 & X6 & X7) [_ R2]. destruct (values_null _ _ _ _ _ _ _ _ Hv) as (L1 & L2 & N). rewrite map_length in L1, L2.
  assert (Hno : NoDup (map fst order)) by (apply (Permutation_NoDup (l := map fst (c_params c))); [apply Permutation_map, Permutation_sym, Hp | exact Hnd]).
  assert (Hc : map fst (combine (map fst order) hs) = map fst order).
  { clear - L2. revert hs L2. induction order as [|x l IH]; intros [|h hs] L; cbn in *; try reflexivity; try discriminate. f_equal. apply IH. lia. }
  specialize (R2 ltac:(rewrite Hc; exact Hno)).
  assert (G : forall k, ctx_param ctx k = assoc k (fold_left (fun m kv => obj_insert (fst kv) (snd kv) m) (combine (map fst order) vs) [])) by (intros k; unfold ctx_param; rewrite X5; reflexivity).
  split.
  - intros i k a Hi. assert (Hk : nth_error (map fst order) i = Some k) by (rewrite nth_error_map, Hi; reflexivity). split; [|split].
    + intros v Ev Em. assert (P : ctx_param ctx k = Some v) by (rewrite G; apply (fold_in k v _ _ [] i); assumption).
      assert (M : ctx_missing_param ctx k = None).
      { apply (proj2 (R2 k)). intros t H. apply combine_in in H. destruct H as (j & H1 & H2). rewrite (nodup_at _ Hno _ _ _ H1 Hk) in H2. congruence. }
      split; [exact P|]. split; [exact M|]. unfold ctx_param_fallback. rewrite P, M. destruct v; reflexivity.
    + intros t Em. assert (P : ctx_param ctx k = Some JNull) by (rewrite G; apply (fold_in k JNull _ _ [] i); [assumption|assumption|exact (N _ _ Em)]).
      assert (M : ctx_missing_param ctx k = Some (JStr t)) by (apply (proj1 (R2 k)); apply (combine_nth _ _ i); assumption).
      unfold ctx_param_fallback. rewrite P, M. auto.
    + intros t Et. unfold raw_param_is, ctx_raw_param. rewrite X1, X2. replace (assoc k (c_params c)) with (Some a); [rewrite Et; reflexivity|].
      symmetry. apply in_assoc; [exact Hnd|]. apply (Permutation_in _ Hp). apply (nth_error_In _ i), Hi.
  - intros k Hk. assert (P : ctx_param ctx k = None) by (rewrite G; rewrite fold_out by assumption; reflexivity).
    assert (M : ctx_missing_param ctx k = None). { apply (proj2 (R2 k)). intros t H. apply (in_map fst) in H. rewrite Hc in H. contradiction. }
    unfold ctx_param_fallback, ctx_raw_param. rewrite P, M, X1. repeat split.
    destruct (assoc k (c_params c)) as [a|] eqn:E; [|reflexivity]. exfalso. apply Hk. apply (Permutation_in (l := map fst (c_params c))); [apply Permutation_map, Permutation_sym, Hp|].
    clear - E. induction (c_params c) as [|[k' v] l IH]; [discriminate|]. cbn in *. destruct (streq k k') eqn:E'; [left; symmetry; apply streq_eq, E' | right; apply IH, E].
Qed.

(** ** C59: whatever way a helper is called (C43: statements, blocks, handlers), this is what its context answers.
    The hash arguments are in a table without repeated keys, as the parser builds it. *)
Theorem C59_arguments : forall A K en src name find c content text prop (m : M A) give st,
  calls_helper K en src name find c content text prop m give st ->
  count_site (match content with Some _ => SBlock name | None => SHelper name end) (r_stack st) < stack_max ->
  Permutation (pl_order (en_plat en) src c) (c_params c) -> NoDup (map fst (c_params c)) ->
  forall args ms s1 vs hs s2,
  values_of K en src (c_args c) (up_stack (match content with Some _ => SBlock name | None => SHelper name end :: r_stack st) st) args ms s1 ->
  values_of K en src (map snd (pl_order (en_plat en) src c)) s1 vs hs s2 ->
  forall f, find s2 f -> exists ctx,
  m st = match run K en (f ctx content) s2 with
         | ROk v s => ROk (give v) (pop_stack s) | RErr e s => RErr e s | RPanic p => RPanic p | RFuel => RFuel end
  /\ hc_name ctx = name /\ hc_call ctx = c /\ hc_src ctx = src /\ hc_text ctx = text /\ hc_property ctx = prop
  /\ sees_arguments ctx src c args ms
  /\ sees_hash ctx src (pl_order (en_plat en) src c) vs hs.
Proof.
  intros A K en src name find c content text prop m give st H Hs Hp Hnd args ms s1 vs hs s2 Ha Hv f Hf.
  destruct (H Hs args ms s1 (fold_left (fun m kv => obj_insert (fst kv) (snd kv) m) (combine (map fst (pl_order (en_plat en) src c)) vs) [])
    (combine (map fst (pl_order (en_plat en) src c)) hs) s2 Ha) with (f := f) as (ctx & X & R & E); [exists vs, hs; auto | exact Hf|].
  exists ctx. split; [exact E|]. pose proof X as (X1 & X2 & X3 & X4 & X5 & X6 & X7). repeat (split; [assumption|]).
  split; [eapply sees_args_ok; eassumption | eapply sees_hash_ok; eassumption].
Qed.
Print Assumptions C59_arguments.

(** ** The source text of arguments *)
Lemma valid_slice src sp : valid_span src sp -> exists s, sl src sp = Some s.
Proof.
  intros ((a & b & E & Ea) & (a' & b' & E' & Ea') & L). unfold sl.
  assert (B1 : bnd src (fst sp)) by (exists a, b; auto). assert (B2 : bnd src (snd sp)) by (exists a', b'; auto).
  apply (slice_some src _ _ B1 B2 L).
Qed.
Section call_induction.
  Variable P : call -> Prop.
  Let Q (v : param) : Prop := match v with VSub c => P c | _ => True end.
  Let T (t : target) : Prop := match t with TSub c => P c | _ => True end.
  Hypothesis H : forall p k o cl t a h l, T t -> Forall Q a -> Forall (fun kv => Q (snd kv)) h -> P (mkCall p k o cl t a h l).
  Fixpoint call_ind' (c : call) : P c :=
    match c with
    | mkCall p k o cl t a h l =>
        H p k o cl t a h l
          (match t as t return T t with TSub c => call_ind' c | TPath _ => I end)
          ((fix go (l : list param) : Forall Q l :=
              match l with
              | [] => Forall_nil _
              | x :: l => Forall_cons x (match x as x return Q x with VSub c => call_ind' c | VPath _ => I | VJson _ _ _ => I end) (go l)
              end) a)
          ((fix go (l : list (str * param)) : Forall (fun kv => Q (snd kv)) l :=
              match l with
              | [] => Forall_nil _
              | (n, x) :: l => Forall_cons (n, x) (match x as x return Q (snd (n, x)) with VSub c => call_ind' c | VPath _ => I | VJson _ _ _ => I end) (go l)
              end) h)
    end.
End call_induction.
Lemma calls_in_sub c : forall c', In c' (calls_in c) -> incl (call_spans c') (call_spans c) /\ incl (call_tags c') (call_tags c).
Proof.
  induction c as [p k o cl t a h l Ht Ha Hh] using call_ind'. intros c' Hin. cbn [calls_in] in Hin. destruct Hin as [<-|Hin]; [split; apply incl_refl|].
  cbn [call_spans call_tags]. rewrite !in_app_iff in Hin. destruct Hin as [Hin|[Hin|Hin]].
  - destruct t as [q|c0]; [contradiction|]. cbn [target_calls] in Hin. destruct (Ht _ Hin) as [S1 S2]. cbn [target_spans target_tags]. split.
    + apply incl_tl, incl_appr, incl_appl, S1.
    + apply incl_appr, incl_appl, S2.
  - apply in_flat_map in Hin. destruct Hin as (v & Hv & Hin). rewrite Forall_forall in Ha. specialize (Ha _ Hv). destruct v as [q|j s0 ln|c0]; try contradiction.
    cbn [param_calls] in Hin. destruct (Ha _ Hin) as [S1 S2]. split.
    + apply incl_tl, incl_appr, incl_appr, incl_appl. intros x Hx. apply in_flat_map. exists (VSub c0). split; [exact Hv | apply S1, Hx].
    + apply incl_appr, incl_appr, incl_appl. intros x Hx. apply in_flat_map. exists (VSub c0). split; [exact Hv | apply S2, Hx].
  - apply in_flat_map in Hin. destruct Hin as (v & Hv & Hin). rewrite Forall_forall in Hh. specialize (Hh _ Hv). destruct v as [kk v]. cbn [snd] in *. destruct v as [q|j s0 ln|c0]; try contradiction.
    cbn [param_calls] in Hin. destruct (Hh _ Hin) as [S1 S2]. split.
    + apply incl_tl, incl_appr, incl_appr, incl_appr. intros x Hx. apply in_flat_map. exists (kk, VSub c0). split; [exact Hv | apply S1, Hx].
    + apply incl_appr, incl_appr, incl_appr. intros x Hx. apply in_flat_map. exists (kk, VSub c0). split; [exact Hv | apply S2, Hx].
Qed.
Lemma param_readable src v : Forall (valid_span src) (param_spans v) -> Forall (fun oc => snd (fst oc) <= fst (snd oc)) (param_tags v) ->
  exists s, param_str src v = Some s.
Proof.
  intros Hs Ht. destruct v as [q|j sp ln|c]; cbn [param_spans param_tags param_str] in *.
  - inversion Hs; subst. apply valid_slice. assumption.
  - inversion Hs; subst. apply valid_slice. assumption.
  - destruct c as [p k o cl t a h l]. cbn [call_spans call_tags] in *. unfold call_str. cbn [c_open c_close]. inversion Hs as [|? ? Ho Hr]; subst.
    destruct cl as [cl|]; [|apply valid_slice, Ho]. cbn [opt_list app tag_pair] in *. inversion Hr as [|? ? Hc _]; subst. inversion Ht as [|? ? Hle _]; subst. cbn [fst snd] in Hle.
    destruct Ho as (O1 & O2 & O3), Hc as (C1 & C2 & C3). apply slice_some; [exact O1 | exact C2 | lia].
Qed.
Lemma Forall2_nth_error_r {A B} (R : A -> B -> Prop) l l' : Forall2 R l l' -> forall i y, nth_error l' i = Some y -> exists x, nth_error l i = Some x /\ R x y.
Proof. induction 1 as [|x y l l' H _ IH]; intros [|i] z E; try discriminate; cbn in *; [injection E as <-; eauto | apply IH, E]. Qed.
(** In a compiled template the raw text of an argument can always be read. *)
Theorem C59_raw_never_panics : forall env o src n fs c ctx, compile env o src = POk n fs -> In c (tree_calls n) -> hc_call ctx = c -> hc_src ctx = src ->
  (forall i, exists r, ctx_raw ctx i = Some r) /\ (forall k, exists r, ctx_raw_param ctx k = Some r).
Proof.
  intros env o src n fs c ctx Hc Hin X1 X2. destruct (compile_spans _ _ _ _ _ Hc) as [Hs Ht].
  assert (S : Forall (valid_span src) (call_spans c) /\ Forall (fun oc => snd (fst oc) <= fst (snd oc)) (call_tags c)).
  { unfold tree_calls in Hin. apply in_app_iff in Hin. unfold tree_spans, tree_tags in *. apply Forall_app in Hs, Ht. destruct Hs as [Hs1 Hs2], Ht as [Ht1 Ht2].
    destruct Hin as [Hin|Hin]; apply in_flat_map in Hin; destruct Hin as (x & Hx & Hin).
    - destruct x as [ | | c0 | | | | | ]; try contradiction. destruct (calls_in_sub _ _ Hin) as [I1 I2].
      apply Forall_flat_map in Hs1, Ht1. rewrite Forall_forall in Hs1, Ht1. specialize (Hs1 _ Hx). specialize (Ht1 _ Hx). cbn [leaf_spans leaf_tags] in *.
      split; [eapply incl_Forall; [exact I1 | exact Hs1] | eapply incl_Forall; [exact I2 | exact Ht1]].
    - destruct (calls_in_sub _ _ Hin) as [I1 I2]. apply Forall_flat_map in Hs2, Ht2. rewrite Forall_forall in Hs2, Ht2. specialize (Hs2 _ Hx). specialize (Ht2 _ Hx).
      unfold block_own_spans in Hs2. inversion Hs2 as [|? ? _ Hs3]; subst. apply Forall_app in Hs3, Ht2. destruct Hs3 as [Hs3 _], Ht2 as [_ Ht3].
      split; [eapply incl_Forall; [exact I1 | exact Hs3] | eapply incl_Forall; [exact I2 | exact Ht3]]. }
  destruct S as [S1 S2]. destruct c as [p k o' cl t a h l]. cbn [call_spans call_tags] in *.
  inversion S1 as [|? ? _ S3]; subst. apply Forall_app in S3. destruct S3 as [_ S3]. apply Forall_app in S3. destruct S3 as [_ S3]. apply Forall_app in S3. destruct S3 as [Sa Sh].
  apply Forall_app in S2. destruct S2 as [_ S2]. apply Forall_app in S2. destruct S2 as [_ S2]. apply Forall_app in S2. destruct S2 as [Ta Th].
  apply Forall_flat_map in Sa, Sh, Ta, Th. rewrite Forall_forall in Sa, Sh, Ta, Th. unfold ctx_raw, ctx_raw_param. rewrite X1. cbn [c_args c_params]. split.
  - intros i. destruct (nth_error a i) as [v|] eqn:E; [|eexists; reflexivity]. apply nth_error_In in E.
    destruct (param_readable _ v (Sa _ E) (Ta _ E)) as (s & ->). eexists; reflexivity.
  - intros kk. destruct (assoc kk h) as [v|] eqn:E; [|eexists; reflexivity]. apply assoc_in in E.
    destruct (param_readable _ v (Sh _ E) (Th _ E)) as (s & ->). eexists; reflexivity.
Qed.
(** The raw text is the text written, for every kind of argument ... *)
Theorem C59_raw_is_source_partial : forall ly pe src pt cd c h t xs hs ctx, call_is ly pe src pt cd c (Call h t xs hs) -> hc_call ctx = c -> hc_src ctx = src ->
  (forall i x, nth_error xs i = Some x -> match x with EPath ph ptl => ends_in_literal ph ptl = false | _ => True end -> exists u, expr_writes ly x u /\ raw_is ctx i u)
  /\ (NoDup (map fst hs) -> forall k x, In (k, x) hs -> match x with EPath ph ptl => ends_in_literal ph ptl = false | _ => True end -> exists u, expr_writes ly x u /\ raw_param_is ctx k u).
Proof.
  intros ly pe src pt cd c h t xs hs ctx Hc X1 X2. subst src. inversion Hc as [? ? ? ? q args params ln ? ? ? ? Hq Ha Hh E1 E2 E3 E4]. rewrite <- E3 in X1. clear E1 E2 E3 E4.
  assert (P : forall v x, param_is ly pe (hc_src ctx) v x -> match x with EPath ph ptl => ends_in_literal ph ptl = false | _ => True end -> exists u, expr_writes ly x u /\ param_str (hc_src ctx) v = Some u).
  { intros v x Hv Hb. destruct Hv as [| | | | |p0 hh tt Hp|]; cbn [param_str]; try (eexists; split; [|eassumption]; first [assumption|constructor]).
    destruct Hp as (_ & _ & _ & _ & _ & _ & _ & F1). rewrite F1, (shown_plain _ _ Hb). eexists. split; [|reflexivity]. constructor. }
  unfold raw_is, raw_param_is, ctx_raw, ctx_raw_param. rewrite X1. cbn [c_args c_params]. split.
  - intros i x Hi Hb. destruct (Forall2_nth_error_r _ _ _ Ha _ _ Hi) as (v & Hv & Hvx). rewrite Hv. destruct (P _ _ Hvx Hb) as (u & Hu & ->). exists u. auto.
  - intros Hn k x Hin Hb. assert (N : map fst params = map fst hs).
    { clear - Hh. induction Hh as [|[a b] [a' b'] l l' [E _] _ IH]; [reflexivity|]. cbn in *. congruence. }
    destruct (In_nth_error _ _ Hin) as (i & Hi). destruct (Forall2_nth_error_r _ _ _ Hh _ _ Hi) as ([k' v] & Hv & Ek & Hvx). cbn in Ek, Hvx. subst k'.
    destruct (P _ _ Hvx Hb) as (u & Hu & E). exists u. split; [exact Hu|].
    rewrite (in_assoc k v params); [rewrite E; reflexivity | rewrite N; exact Hn | apply (nth_error_In _ i), Hv].
Qed.
(** ... so in the printed layout it is the printed text *)
Theorem C59_raw_printed_partial : forall pe src pt cd c h t xs hs ctx, call_is Tight pe src pt cd c (Call h t xs hs) -> hc_call ctx = c -> hc_src ctx = src ->
  (forall i x, nth_error xs i = Some x -> match x with EPath ph ptl => ends_in_literal ph ptl = false | _ => True end -> raw_is ctx i (expr_text x))
  /\ (NoDup (map fst hs) -> forall k x, In (k, x) hs -> match x with EPath ph ptl => ends_in_literal ph ptl = false | _ => True end -> raw_param_is ctx k (expr_text x)).
Proof.
  intros pe src pt cd c h t xs hs ctx Hc X1 X2. destruct (C59_raw_is_source_partial Tight pe src pt cd c h t xs hs ctx Hc X1 X2) as [A B]. split.
  - intros i x Hi Hb. destruct (A i x Hi Hb) as (u & Hu & H). apply tight_text in Hu. subst u. exact H.
  - intros Hn k x Hi Hb. destruct (B Hn k x Hi Hb) as (u & Hu & H). apply tight_text in Hu. subst u. exact H.
Qed.
(** ... except a path ending in a bracket, whose text is cut before it ends *)
Theorem C59_raw_bracket_refuted : exists r, once r (lit "{{raw a.[b] x}}") (JObj []) = AOk (lit "a.[|x").
Proof.
  exists (helper_insert (lit "raw") (fun c _ => match ctx_raw c 0, ctx_raw c 1 with Some (Some s), Some (Some t) => HRet (Some (JStr (s ++ [124%N] ++ t))) | _, _ => HPanic end) reg0).
  vm_compute. reflexivity.
Qed.

(** ** Assertions *)
(** [try_get]/[try_param]: the value of that argument, null if it was not given, if it is of that type; else the type error *)
Theorem C59_try_get : forall ctx i kd v, ctx_get ctx i = Some v \/ (ctx_get ctx i = None /\ v = JNull) ->
  (kind_name v = type_str kd -> ctx_try_get ctx i [kd] = HOk v)
  /\ (kind_name v <> type_str kd -> ctx_try_get ctx i [kd] = HErr (ETypeAssert (hc_name ctx) (type_str kd) (kind_name v))).
Proof.
  intros ctx i kd v Hv. unfold ctx_try_get, ctx_try_value. assert (E : match ctx_get ctx i with Some v => v | None => JNull end = v) by (destruct Hv as [->|[-> ->]]; reflexivity).
  rewrite E. destruct (C51_assert_one_kind_partial ctx v kd) as [A B]. split; intros H; [rewrite (A H) | rewrite (B H)]; reflexivity.
Qed.
Theorem C59_try_param : forall ctx k kd v, ctx_param ctx k = Some v \/ (ctx_param ctx k = None /\ v = JNull) ->
  (kind_name v = type_str kd -> ctx_try_param ctx k [kd] = HOk v)
  /\ (kind_name v <> type_str kd -> ctx_try_param ctx k [kd] = HErr (ETypeAssert (hc_name ctx) (type_str kd) (kind_name v))).
Proof.
  intros ctx k kd v Hv. unfold ctx_try_param, ctx_try_value. assert (E : match ctx_param ctx k with Some v => v | None => JNull end = v) by (destruct Hv as [->|[-> ->]]; reflexivity).
  rewrite E. destruct (C51_assert_one_kind_partial ctx v kd) as [A B]. split; intros H; [rewrite (A H) | rewrite (B H)]; reflexivity.
Qed.
(** A helper that asserts a block (a statement) fails with its name in exactly the other case, before anything else. *)
Theorem C59_assert_block : forall K en ctx st f g,
  (forall t, run K en (htry f (ctx_assert_block ctx (Some t))) st = run K en (f t) st
          /\ run K en (htry g (ctx_assert_statement ctx (Some t))) st = RErr (EBlockTemplateNotAllowed (hc_name ctx)) st)
  /\ run K en (htry f (ctx_assert_block ctx None)) st = RErr (EBlockTemplate (hc_name ctx)) st
  /\ run K en (htry g (ctx_assert_statement ctx None)) st = run K en (g tt) st.
Proof. intros K en ctx st f g. repeat split. Qed.

(** ** Non-vacuity: missing, null and given arguments, hash arguments, raw texts *)
Definition shows : helper := fun c _ =>
  let v := fun o => match o with Some (JStr s) => s | Some JNull => lit "null" | Some _ => lit "?" | None => lit "-" end in
  let r := fun o => match o with Some (Some s) => s | _ => lit "-" end in
  HRet (Some (JStr (join [44%N] [v (ctx_get c 0); v (ctx_get_fallback c 0); v (ctx_missing c 0); r (ctx_raw c 0);
                                 v (ctx_get_fallback c 1); v (ctx_missing c 1); v (ctx_get_fallback c 7);
                                 v (ctx_param c (lit "k")); v (ctx_param_fallback c (lit "k")); r (ctx_raw_param c (lit "k")); v (ctx_param_fallback c (lit "z"))]))).
Example C59_nonvacuous :
  once (helper_insert (lit "shows") shows reg0) (lit "{{{shows a.b n k=(lookup o 'x')}}}") (JObj [(lit "n", JNull); (lit "o", JObj [(lit "x", JStr (lit "X"))])])
  = AOk (lit "null,a.b,a.b,a.b,null,-,-,X,X,(lookup o 'x'),-")
  /\ once (helper_insert (lit "shows") shows reg0) (lit "{{{shows ""s"" n k=q}}}") (JObj [])
  = AOk (lit "s,s,-,""s"",n,n,-,null,q,q,-").
Proof. vm_compute. split; reflexivity. Qed.
