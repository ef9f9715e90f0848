(** * Props_Calls: variables, helper resolution, strict mode, local helpers and partials (C41-C45). *)
From Coq Require Import Lia String.
From Verif Require Import Str Json Ast ErrInfo Parser Render Helpers Registry Tests Spec_Values Spec_Helpers Spec_Render Spec_Blocks Spec_Calls StrFacts
  ValueFacts UnaryFacts StateFacts CycleFacts LimitFacts BuiltinFacts Props_Values Props_Render.
Open Scope nat_scope. Open Scope list_scope.

(** ** Arguments *)
Lemma variable_ok en src p st v : variable_is en src p st v -> mlookup en src p st = ROk (Some v) st.
Proof. intros (r & H & E). rewrite H. f_equal. apply E. reflexivity. Qed.
Lemma missing_ok en src p st : variable_missing en src p st -> mlookup en src p st = ROk None st.
Proof. intros (r & H & E). rewrite H. destruct r as [w|]; [contradiction (proj1 (E w) eq_refl) | reflexivity]. Qed.
Lemma value_ok K en src p st v m s : value_of K en src p st v m s -> eval_param K en src p st = ROk (v, m) s.
Proof.
  intros H. destruct H; cbn [eval_param].
  - reflexivity.
  - rewrite (bind_ok _ _ _ _ _ (variable_ok _ _ _ _ _ H)). reflexivity.
  - rewrite (bind_ok _ _ _ _ _ (missing_ok _ _ _ _ H)). rewrite H0. reflexivity.
  - rewrite (bind_ok _ _ _ _ _ H). reflexivity.
  - rewrite (bind_ok _ _ _ _ _ H). rewrite H0. reflexivity.
Qed.
(** the list of missing values a list of arguments leaves *)
Fixpoint miss_args (i : nat) (ms : list (option str)) : list missing_value :=
  match ms with [] => [] | Some t :: ms => MissArg i (JStr t) :: miss_args (S i) ms | None :: ms => miss_args (S i) ms end.
Fixpoint miss_params (mh : list (str * option str)) : list missing_value :=
  match mh with [] => [] | (k, Some t) :: mh => MissParam k (JStr t) :: miss_params mh | (_, None) :: mh => miss_params mh end.
Lemma values_ok K en src ps st vs ms s : values_of K en src ps st vs ms s -> forall i, arguments K en src i ps st = ROk (vs, miss_args i ms) s.
Proof.
  induction 1 as [st|p ps st v m s1 vs ms s Hv H IH]; intros i; cbn [arguments miss_args].
  - reflexivity.
  - rewrite (bind_ok _ _ _ _ _ (value_ok _ _ _ _ _ _ _ _ Hv)), (bind_ok _ _ _ _ _ (IH (S i))). cbn [fst snd]. destruct m; reflexivity.
Qed.
Lemma hash_go_ok K en src ps : forall st vs ms s, values_of K en src (map snd ps) st vs ms s -> forall acc,
  hash_go K en src ps acc st = ROk (fold_left (fun m kv => obj_insert (fst kv) (snd kv) m) (combine (map fst ps) vs) acc, miss_params (combine (map fst ps) ms)) s.
Proof.
  induction ps as [|[k p] ps IH]; intros st vs ms s H acc; inversion H; subst; cbn [hash_go].
  - reflexivity.
  - match goal with X : value_of _ _ _ _ _ _ _ _ |- _ => rewrite (bind_ok _ _ _ _ _ (value_ok _ _ _ _ _ _ _ _ X)) end. cbn [fst snd].
    match goal with X : values_of _ _ _ _ _ _ _ _ |- _ => pose proof (IH _ _ _ _ X (obj_insert k v acc)) as E end.
    rewrite (bind_ok _ _ _ _ _ E). cbn [fst snd map combine miss_params]. match goal with |- context [match ?m with Some _ => _ | None => _ end] => destruct m end; reflexivity.
Qed.
Lemma hash_ok K en src c st h mh s : hash_of K en src c st h mh s -> hash K en src c st = ROk (h, miss_params mh) s.
Proof. intros (vs & ms & H & -> & ->). apply (hash_go_ok K en src _ _ _ _ _ H []). Qed.
(** looking missing values up *)
Lemma miss_args_params i ms mh : find_missing i (miss_args 0 ms ++ miss_params mh) = match nth_error ms i with Some (Some t) => Some (JStr t) | _ => None end.
Proof.
  assert (P : find_missing i (miss_params mh) = None) by (induction mh as [|[k [t|]] mh IH]; cbn; auto).
  assert (G : forall ms n, find_missing i (miss_args n ms ++ miss_params mh) = if i <? n then None else match nth_error ms (i - n) with Some (Some t) => Some (JStr t) | _ => None end).
  { clear ms. induction ms as [|m ms IH]; intros n.
    - cbn [miss_args app]. rewrite P. destruct (i <? n); [reflexivity|]. destruct (i - n); reflexivity.
    - destruct (Nat.ltb_spec i n) as [L|L].
      + destruct m; cbn; [replace (n =? i) with false by (symmetry; apply Nat.eqb_neq; lia)|]; rewrite IH; replace (i <? S n) with true by (symmetry; apply Nat.ltb_lt; lia); reflexivity.
      + destruct (Nat.eq_dec i n) as [->|D].
        * rewrite Nat.sub_diag. cbn [nth_error]. destruct m; cbn; [rewrite Nat.eqb_refl; reflexivity|]. rewrite IH. replace (n <? S n) with true by (symmetry; apply Nat.ltb_lt; lia). reflexivity.
        * replace (i - n) with (S (i - S n)) by lia. cbn [nth_error].
          destruct m; cbn; [replace (n =? i) with false by (symmetry; apply Nat.eqb_neq; lia)|]; rewrite IH; replace (i <? S n) with false by (symmetry; apply Nat.ltb_ge; lia); reflexivity. }
  rewrite G. cbn. rewrite Nat.sub_0_r. reflexivity.
Qed.
Lemma miss_args_skip k ms mh : forall n, find_missing_param k (miss_args n ms ++ miss_params mh) = find_missing_param k (miss_params mh).
Proof. induction ms as [|[t|] ms IH]; intros n; cbn; auto. Qed.
Lemma miss_params_in k t mh : NoDup (map fst mh) -> In (k, Some t) mh -> find_missing_param k (miss_params mh) = Some (JStr t).
Proof.
  induction mh as [|[k' m] mh IH]; intros N H; [contradiction|]. inversion N as [|x l Hn Hd E]; subst. destruct H as [H|H].
  - injection H as -> ->. cbn. replace (streq k k) with true by (symmetry; apply streq_eq; reflexivity). reflexivity.
  - assert (D : streq k' k = false). { destruct (streq k' k) eqn:E; [|reflexivity]. apply streq_eq in E. subst k'. contradiction Hn. apply (in_map fst) in H. exact H. }
    destruct m; cbn; [rewrite D|]; apply IH; assumption.
Qed.
Lemma miss_params_out k mh : (forall t, ~ In (k, Some t) mh) -> find_missing_param k (miss_params mh) = None.
Proof.
  induction mh as [|[k' [t|]] mh IH]; intros H; cbn; [reflexivity| |apply IH; intros t H'; apply (H t); right; exact H'].
  destruct (streq k' k) eqn:E.
  - apply streq_eq in E. subst k'. contradiction (H t). left. reflexivity.
  - apply IH. intros t' H'. apply (H t'). right. exact H'.
Qed.
Lemma remembers_ok c src name args params text prop ms mh : remembers (mkHctx c src name args params text prop (miss_args 0 ms ++ miss_params mh)) ms mh.
Proof.
  split.
  - intros i. unfold ctx_missing. cbn [hc_missing]. rewrite miss_args_params. split; [intros t ->; reflexivity|]. intros H.
    destruct (nth_error ms i) as [[t|]|]; [contradiction (H t); reflexivity|reflexivity|reflexivity].
  - intros N k. unfold ctx_missing_param. cbn [hc_missing]. rewrite miss_args_skip. split; [intros t H; apply miss_params_in; assumption | apply miss_params_out].
Qed.
(** literals and variables leave the state alone *)
Lemma find_by_name en st n f : finds_helper en st n f ->
  match assoc n (r_local st) with Some f => Some f | None => assoc n (rg_helpers (en_reg en)) end = Some f.
Proof. intros [H|[H H']]; rewrite H; [reflexivity | exact H']. Qed.
Lemma find_name en st n f : finds_helper en st n f <-> match assoc n (r_local st) with Some f => Some f | None => assoc n (rg_helpers (en_reg en)) end = Some f.
Proof.
  split; [apply find_by_name|]. unfold finds_helper. destruct (assoc n (r_local st)); auto.
Qed.
Lemma has_helper_find en st n : has_helper en n st = true <-> exists f, finds_helper en st n f.
Proof.
  setoid_rewrite find_name. unfold has_helper. destruct (assoc n (r_local st)) as [f|]; [split; eauto|].
  destruct (assoc n (rg_helpers (en_reg en))) as [f|]; split; eauto; [discriminate | intros (f & H); discriminate H].
Qed.
Lemma has_helper_none en st n : no_helper en st n -> has_helper en n st = false.
Proof.
  intros H. destruct (has_helper en n st) eqn:E; [|reflexivity]. apply has_helper_find in E. destruct E as (f & E). contradiction (H f).
Qed.
Lemma invoke_ok K en src name tg c content text prop st :
  calls_helper K en src name (fun s f => match tg with ByName n => finds_helper en s n f | ByRef g => f = g end) c content text prop
    (invoke K en src name tg c content text prop) (fun v => v) st.
Proof.
  intros Hc args ms s1 params hs s2 Ha Hh f Hf. pose proof (values_ok _ _ _ _ _ _ _ _ Ha 0) as Ea. pose proof (hash_ok _ _ _ _ _ _ _ _ Hh) as Eh.
  set (ma := miss_args 0 ms) in *. set (mh := miss_params hs) in *.
  exists (mkHctx c src name args params text prop (ma ++ mh)). split; [unfold context_is; cbn; auto 10|]. split; [apply remembers_ok|].
  unfold invoke. cbv zeta. rewrite bind_get. replace (stack_max <=? _) with false by (symmetry; apply Nat.leb_gt; exact Hc).
  rewrite bind_upd, (bind_ok _ _ _ _ _ Ea), (bind_ok _ _ _ _ _ Eh), bind_get. cbn [fst snd]. unfold bind.
  assert (E : match tg with
     | ByName n => match assoc n (r_local s2) with
                   | Some f0 => run K en (f0 (mkHctx c src name args params text prop (ma ++ mh)) content)
                   | None => match assoc n (rg_helpers (en_reg en)) with
                             | Some f0 => run K en (f0 (mkHctx c src name args params text prop (ma ++ mh)) content)
                             | None => ret None end end
     | ByRef f0 => run K en (f0 (mkHctx c src name args params text prop (ma ++ mh)) content) end
     = run K en (f (mkHctx c src name args params text prop (ma ++ mh)) content)).
  { destruct tg as [n|g]; [|subst; reflexivity]. apply find_name in Hf. destruct (assoc n (r_local s2)) as [f1|]; [injection Hf as ->; reflexivity|]. rewrite Hf. reflexivity. }
  rewrite E. destruct (run K en (f _ content) s2); reflexivity.
Qed.

(** ** C43: helper resolution *)
(** a call by name runs the local helper, else the registered helper *)
Theorem C43_helper_call : forall K en src c p name st, calls_name src c p name -> (exists f, finds_helper en st name f) ->
  calls_helper K en src name (fun s f => finds_helper en s name f) c None None None (stmt_ K en src c) (fun v => v) st.
Proof.
  intros K en src c p name st (Hp & Ht & He & Hs & Hn) Hf Hc args ms s1 params hs s2 Ha Hh f Hff.
  destruct (invoke_ok K en src name (ByName name) c None None None st Hc args ms s1 params hs s2 Ha Hh f Hff) as (ctx & Hx & Hy & E). exists ctx. split; [exact Hx|]. split; [exact Hy|].
  rewrite <- E. unfold stmt_. rewrite Hp. unfold call_. rewrite Ht, He, Hs, Hn. cbn [need]. rewrite bind_ret, bind_get.
  rewrite (proj2 (has_helper_find en st name) Hf). reflexivity.
Qed.
(** without a helper of that name: the variable *)
Theorem C43_variable : forall K en src c p name st v, calls_name src c p name -> no_helper en st name ->
  variable_is en src p st v -> stmt_ K en src c st = ROk (Some v) st.
Proof.
  intros K en src c p name st v (Hp & Ht & He & Hs & Hn) Hf Hv. unfold stmt_. rewrite Hp. unfold call_. rewrite Ht, He, Hs, Hn. cbn [need].
  rewrite bind_ret, bind_get, (has_helper_none _ _ _ Hf), (bind_ok _ _ _ _ _ (variable_ok _ _ _ _ _ Hv)). reflexivity.
Qed.
(** without helper and variable: the helperMissing handler *)
Theorem C43_helper_missing : forall K en src c p name st h, calls_name src c p name -> no_helper en st name ->
  variable_missing en src p st -> rg_missing (en_reg en) = Some h ->
  calls_helper K en src helper_missing_name (fun _ f => f = h) c None None None (stmt_ K en src c) (fun v => v) st.
Proof.
  intros K en src c p name st h (Hp & Ht & He & Hs & Hn) Hf Hv Hm Hc args ms s1 params hs s2 Ha Hh f Hff.
  destruct (invoke_ok K en src helper_missing_name (ByRef h) c None None None st Hc args ms s1 params hs s2 Ha Hh f Hff) as (ctx & Hx & Hy & E). exists ctx. split; [exact Hx|]. split; [exact Hy|].
  rewrite <- E. unfold stmt_. rewrite Hp. unfold call_. rewrite Ht, He, Hs, Hn. cbn [need].
  rewrite bind_ret, bind_get, (has_helper_none _ _ _ Hf), (bind_ok _ _ _ _ _ (missing_ok _ _ _ _ Hv)), Hm. reflexivity.
Qed.
(** paths of several components are variables only *)
Theorem C43_path : forall K en src c p st v, c_partial c = false -> c_target c = TPath p -> pa_explicit p = true \/ path_is_simple p = false ->
  variable_is en src p st v -> stmt_ K en src c st = ROk (Some v) st.
Proof.
  intros K en src c p st v Hp Ht Hs Hv. unfold stmt_. rewrite Hp. unfold call_. rewrite Ht. destruct (pa_explicit p); [apply variable_ok, Hv|].
  destruct Hs as [Hs|Hs]; [discriminate Hs|]. rewrite Hs. unfold resolve. rewrite (bind_ok _ _ _ _ _ (variable_ok _ _ _ _ _ Hv)). reflexivity.
Qed.
(** blocks *)
Definition opens_name (src : str) (b : block) (p : path) (name : str) : Prop :=
  b_raw b = false /\ c_partial (b_call b) = false /\ c_target (b_call b) = TPath p /\ path_is_simple p = true /\ path_str src p = Some name.
Theorem C43_block_helper : forall K en src b p name st, opens_name src b p name -> (exists f, finds_helper en st name f) ->
  calls_helper K en src name (fun s f => finds_helper en s name f) (b_call b) (Some (mkTpl src (NBlock b))) None None (block_ K en src b) (fun _ => tt) st.
Proof.
  intros K en src b p name st (Hr & Hp & Ht & Hs & Hn) Hf Hc args ms s1 params hs s2 Ha Hh f Hff.
  destruct (invoke_ok K en src name (ByName name) (b_call b) (Some (mkTpl src (NBlock b))) None None st Hc args ms s1 params hs s2 Ha Hh f Hff) as (ctx & Hx & Hy & E). exists ctx. split; [exact Hx|]. split; [exact Hy|].
  unfold block_. rewrite Hp, Ht, Hs, Hr, Hn. cbn [need]. rewrite bind_ret, bind_ret, bind_get, (proj2 (has_helper_find en st name) Hf). unfold bind. rewrite E.
  destruct (run K en (f ctx _) s2); reflexivity.
Qed.
Theorem C43_block_missing : forall K en src b p name st v, opens_name src b p name -> no_helper en st name -> variable_is en src p st v ->
  (forall h, rg_block_missing (en_reg en) = Some h ->
     calls_helper K en src block_helper_missing_name (fun _ f => f = h) (b_call b) (Some (mkTpl src (NBlock b))) None (Some (name, v)) (block_ K en src b) (fun _ => tt) st)
  /\ (rg_block_missing (en_reg en) = None -> block_ K en src b st = template_ K en (mkTpl src (NBlock b)) st).
Proof.
  intros K en src b p name st v (Hr & Hp & Ht & Hs & Hn) Hf Hv.
  assert (E0 : block_ K en src b st = match rg_block_missing (en_reg en) with
       | Some h => (invoke K en src block_helper_missing_name (ByRef h) (b_call b) (Some (mkTpl src (NBlock b))) None (Some (name, v)) ;; ret tt) st
       | None => template_ K en (mkTpl src (NBlock b)) st end).
  { unfold block_. rewrite Hp, Ht, Hs, Hr, Hn. cbn [need]. rewrite bind_ret, bind_ret, bind_get, (has_helper_none _ _ _ Hf). unfold block_missing. cbn [tp_src].
    rewrite Ht, (bind_ok _ _ _ _ _ (variable_ok _ _ _ _ _ Hv)), Hn. destruct (rg_block_missing (en_reg en)); reflexivity. }
  split.
  - intros h Hh0 Hc args ms s1 params hs s2 Ha Hh f Hff. rewrite E0, Hh0.
    destruct (invoke_ok K en src block_helper_missing_name (ByRef h) (b_call b) (Some (mkTpl src (NBlock b))) None (Some (name, v)) st Hc args ms s1 params hs s2 Ha Hh f Hff) as (ctx & Hx & Hy & E). exists ctx. split; [exact Hx|]. split; [exact Hy|].
    unfold bind. rewrite E. destruct (run K en (f ctx _) s2); reflexivity.
  - intros Hh0. rewrite E0, Hh0. reflexivity.
Qed.
Theorem C43_block_nothing : forall K en src b p name st, opens_name src b p name -> no_helper en st name -> variable_missing en src p st ->
  (forall h, rg_missing (en_reg en) = Some h ->
     calls_helper K en src helper_missing_name (fun _ f => f = h) (b_call b) None None None (block_ K en src b) (fun _ => tt) st)
  /\ (rg_missing (en_reg en) = None -> block_ K en src b st = if rg_strict (en_reg en) then RErr (EHelperNotFound name) st else ROk tt st).
Proof.
  intros K en src b p name st (Hr & Hp & Ht & Hs & Hn) Hf Hv.
  assert (E0 : block_ K en src b st = match rg_missing (en_reg en) with
       | Some h => (invoke K en src helper_missing_name (ByRef h) (b_call b) None None None ;; ret tt) st
       | None => if rg_strict (en_reg en) then RErr (EHelperNotFound name) st else ROk tt st end).
  { unfold block_. rewrite Hp, Ht, Hs, Hr, Hn. cbn [need]. rewrite bind_ret, bind_ret, bind_get, (has_helper_none _ _ _ Hf). unfold block_missing. cbn [tp_src].
    rewrite Ht, (bind_ok _ _ _ _ _ (missing_ok _ _ _ _ Hv)), Hn. destruct (rg_missing (en_reg en)); [reflexivity|]. destruct (rg_strict (en_reg en)); reflexivity. }
  split.
  - intros h Hh0 Hc args ms s1 params hs s2 Ha Hh f Hff. rewrite E0, Hh0.
    destruct (invoke_ok K en src helper_missing_name (ByRef h) (b_call b) None None None st Hc args ms s1 params hs s2 Ha Hh f Hff) as (ctx & Hx & Hy & E). exists ctx. split; [exact Hx|]. split; [exact Hy|].
    unfold bind. rewrite E. destruct (run K en (f ctx _) s2); reflexivity.
  - intros Hh0. rewrite E0, Hh0. reflexivity.
Qed.
(** errors of arguments are errors of the call: the helper is not run *)
Definition values_fail (K : knot) (en : env) (src : str) (ps : list param) (st : rst) (e : rerr) (s : rst) : Prop :=
  exists pre c post vs ms mid, ps = pre ++ VSub c :: post /\ values_of K en src pre st vs ms mid /\ k_stmt K en src c mid = RErr e s.
Lemma args_fail K en src e s : forall ps st, values_fail K en src ps st e s -> forall i, arguments K en src i ps st = RErr e s.
Proof.
  intros ps st (pre & c & post & vs & ms & mid & -> & H & E). induction H as [st|p ps st v m s1 vs ms s2 Hv H IH]; intros i; cbn [app arguments].
  - unfold bind at 1. cbn [eval_param]. unfold bind at 1. rewrite E. reflexivity.
  - rewrite (bind_ok _ _ _ _ _ (value_ok _ _ _ _ _ _ _ _ Hv)). unfold bind at 1. rewrite (IH E (S i)). reflexivity.
Qed.
Theorem C43_argument_error : forall K en src c p name st e s, calls_name src c p name -> (exists f, finds_helper en st name f) ->
  count_site (SHelper name) (r_stack st) < stack_max ->
  values_fail K en src (c_args c) (up_stack (SHelper name :: r_stack st) st) e s -> stmt_ K en src c st = RErr e s.
Proof.
  intros K en src c p name st e s (Hp & Ht & He & Hs & Hn) Hf Hc Ha. unfold stmt_. rewrite Hp. unfold call_. rewrite Ht, He, Hs, Hn. cbn [need]. rewrite bind_ret, bind_get.
  rewrite (proj2 (has_helper_find en st name) Hf). unfold invoke. cbv zeta. rewrite bind_get. replace (stack_max <=? _) with false by (symmetry; apply Nat.leb_gt; exact Hc).
  rewrite bind_upd. unfold bind at 1. rewrite (args_fail _ _ _ _ _ _ _ Ha 0). reflexivity.
Qed.
(** a registry where [a] is a local helper (registered by [reg]), a registered helper and a variable *)
Definition say (s : str) : helper := fun _ _ => HRet (Some (JStr s)).
Definition reg_local (n : str) (s : str) : helper := fun _ _ => HRegister n (say s) (HRet None).
Definition calls_reg : registry := helper_insert (lit "b") (say (lit "B")) (helper_insert (lit "a") (say (lit "A")) (helper_insert (lit "reg") (reg_local (lit "a") (lit "L")) reg0)).
Example C43_nonvacuous :
  once calls_reg (lit "{{a}}{{reg}}{{a}}{{b}}{{c}}{{d}}{{o.a}}") (JObj [(lit "a", JStr (lit "va")); (lit "c", JStr (lit "vc")); (lit "o", JObj [(lit "a", JStr (lit "oa"))])]) = AOk (lit "ALBvcoa").
Proof. vm_compute. reflexivity. Qed.

(** ** C41, C42: missing variables *)
Theorem C41_strict_variable_partial : forall K en src c p s st,
  rg_strict (en_reg en) = true -> c_partial c = false -> c_target c = TPath p -> pa_explicit p = false -> path_str src p = Some s ->
  (path_is_simple p = true -> no_helper en st s /\ rg_missing (en_reg en) = None) ->
  variable_missing en src p st -> stmt_ K en src c st = RErr (EVariableNotFound s (en_name en)) st.
Proof.
  intros K en src c p s st Hst Hp Ht He Hs Hh Hv. unfold stmt_. rewrite Hp. unfold call_. rewrite Ht, He. destruct (path_is_simple p) eqn:Es.
  - destruct (Hh eq_refl) as [H1 H2]. rewrite Hs. cbn [need]. rewrite bind_ret, bind_get, (has_helper_none _ _ _ H1), (bind_ok _ _ _ _ _ (missing_ok _ _ _ _ Hv)), H2, Hst. reflexivity.
  - unfold resolve. rewrite (bind_ok _ _ _ _ _ (missing_ok _ _ _ _ Hv)), Hst, Hs. reflexivity.
Qed.
(** ... and so fails the rendering of the statement, whatever comes before and after it *)
Theorem C41_strict_statement_partial : forall fuel en src c p s tr st,
  rg_strict (en_reg en) = true -> c_partial c = false -> c_target c = TPath p -> pa_explicit p = false -> path_str src p = Some s ->
  (path_is_simple p = true -> no_helper en st s /\ rg_missing (en_reg en) = None) -> variable_missing en src p st ->
  node_trim src (NStmt c) <> None ->
  exists s', node_ (tie (S fuel)) en src (NStmt c) tr st = RErr (EVariableNotFound s (en_name en)) s' /\ r_out s' = r_out st.
Proof.
  intros fuel en src c p s tr st Hst Hp Ht He Hs Hh Hv Htr. destruct (node_trim src (NStmt c)) as [h|] eqn:Eh; [|contradiction]. clear Htr.
  unfold node_. rewrite bind_upd, Eh. cbn [need]. rewrite bind_ret, bind_upd, bind_upd.
  match goal with |- exists s', node_body _ _ _ _ ?st' = _ /\ _ => set (S1 := st') end.
  assert (L : r_local S1 = r_local st /\ r_scopes S1 = r_scopes st /\ r_out S1 = r_out st).
  { unfold S1. cbn [r_end up_hint up_trim]. destruct (r_end st) as [e|]; [|auto]. destruct (th_after e); auto. }
  destruct L as (L1 & L2 & L3). exists S1. split; [|exact L3]. cbn [node_body tie k_stmt]. unfold bind.
  rewrite (C41_strict_variable_partial (tie fuel) en src c p s S1 Hst Hp Ht He Hs); [reflexivity| |].
  - intros E. destruct (Hh E) as [H1 H2]. split; [|exact H2]. intros f Hf. apply (H1 f). unfold finds_helper in *. rewrite <- L1. exact Hf.
  - destruct Hv as (r & Hr & Hw). exists r. split; [|exact Hw]. revert Hr. unfold mlookup. rewrite !bind_get, L2. destruct (lookup src p (en_root en) (r_scopes st)); [|discriminate].
    cbn. intros H. injection H as ->. reflexivity.
Qed.
Theorem C41_strict_block_partial : forall K en src b p name st, rg_strict (en_reg en) = true -> rg_missing (en_reg en) = None ->
  opens_name src b p name -> no_helper en st name -> variable_missing en src p st ->
  block_ K en src b st = RErr (EHelperNotFound name) st.
Proof.
  intros K en src b p name st Hst Hm Hb Hf Hv. rewrite (proj2 (C43_block_nothing K en src b p name st Hb Hf Hv) Hm), Hst. reflexivity.
Qed.
Definition strict_reg : registry := set_strict true reg0.
Definition status {A} (r : ares A) : bool := match r with AOk _ => true | _ => false end.
Example C41_nonvacuous : map (fun s => status (once strict_reg s (JObj []))) [lit "{{a}}"; lit "{{a.b}}"; lit "{{#a}}x{{/a}}"; lit "{{@root.a}}"; lit "{{../a}}"] = [false; false; false; false; false].
Proof. vm_compute. reflexivity. Qed.
(** The full claim fails for explicit paths, arguments, hash arguments and conditions. *)
Theorem C41_silent_refuted : map (fun s => once strict_reg s (JObj [])) [lit "{{this.missing}}"; lit "{{./missing}}"; lit "{{json missing}}"; lit "{{#if missing}}a{{/if}}"; lit "{{#each missing}}a{{/each}}"]
  = [AOk []; AOk []; AOk (lit "null"); AOk []; AOk []].
Proof. vm_compute. reflexivity. Qed.

Theorem C42_missing_is_silent : forall fuel en src c p s tr st,
  rg_strict (en_reg en) = false -> c_partial c = false -> c_target c = TPath p -> path_str src p = Some s ->
  (path_is_simple p = true -> no_helper en st s /\ rg_missing (en_reg en) = None) -> variable_missing en src p st ->
  node_trim src (NStmt c) <> None ->
  exists s', node_ (tie (S fuel)) en src (NStmt c) tr st = ROk tt s' /\ r_out s' = r_out st /\ r_scopes s' = r_scopes st /\ r_local s' = r_local st /\ r_stack s' = r_stack st.
Proof.
  intros fuel en src c p s tr st Hst Hp Ht Hs Hh Hv Htr. destruct (node_trim src (NStmt c)) as [h|] eqn:Eh; [|contradiction]. clear Htr.
  unfold node_. rewrite bind_upd, Eh. cbn [need]. rewrite bind_ret, bind_upd, bind_upd.
  match goal with |- exists s', node_body _ _ _ _ ?st' = _ /\ _ => set (S1 := st') end.
  assert (L : r_local S1 = r_local st /\ r_scopes S1 = r_scopes st /\ r_out S1 = r_out st /\ r_stack S1 = r_stack st).
  { unfold S1. cbn [r_end up_hint up_trim]. destruct (r_end st) as [e|]; [|auto]. destruct (th_after e); auto. }
  destruct L as (L1 & L2 & L3 & L4). exists S1. split; [|auto]. cbn [node_body tie k_stmt].
  assert (Hv1 : mlookup en src p S1 = ROk None S1).
  { apply missing_ok. destruct Hv as (r & Hr & Hw). exists r. split; [|exact Hw]. revert Hr. unfold mlookup. rewrite !bind_get, L2. destruct (lookup src p (en_root en) (r_scopes st)); [|discriminate].
    cbn. intros H. injection H as ->. reflexivity. }
  assert (R : stmt_ (tie fuel) en src c S1 = ROk None S1); [|rewrite (bind_ok _ _ _ _ _ R); reflexivity].
  unfold stmt_. rewrite Hp. unfold call_. rewrite Ht. destruct (pa_explicit p); [exact Hv1|]. destruct (path_is_simple p) eqn:Es.
  - destruct (Hh eq_refl) as [H1 H2]. rewrite Hs. cbn [need]. rewrite bind_ret, bind_get.
    rewrite (has_helper_none en S1 s); [rewrite (bind_ok _ _ _ _ _ Hv1), H2, Hst; reflexivity|].
    intros f Hf. apply (H1 f). unfold finds_helper in *. rewrite <- L1. exact Hf.
  - unfold resolve. rewrite (bind_ok _ _ _ _ _ Hv1), Hst. reflexivity.
Qed.
Example C42_nonvacuous : once reg0 (lit "a{{b}}c{{d.e}}f{{this.g}}h") (JObj []) = AOk (lit "acfh").
Proof. vm_compute. reflexivity. Qed.

(** ** C44: local helpers *)
(** registering makes the helper available to what follows, unregistering makes it unavailable *)
Theorem C44_registered_partial : forall K en name h k st, exists s,
  run K en (HRegister name h k) st = run K en k s /\ finds_helper en s name h
  /\ (forall n f, n <> name -> (finds_helper en s n f <-> finds_helper en st n f)) /\ r_scopes s = r_scopes st /\ r_out s = r_out st.
Proof.
  intros K en name h k st. exists (up_local (assoc_set name h (r_local st)) st). split; [reflexivity|]. split; [left; cbn; apply assoc_set_eq|]. split; [|auto].
  intros n f Hn. unfold finds_helper. cbn [r_local up_local]. rewrite assoc_set_neq by auto. reflexivity.
Qed.
Lemma assoc_del_eq {A} k (l : list (str * A)) : assoc k (assoc_del k l) = None.
Proof.
  induction l as [|[k' v] l IH]; cbn; [reflexivity|]. destruct (streq k k') eqn:E; cbn; [exact IH|].
  rewrite E. exact IH.
Qed.
Lemma assoc_del_neq {A} k n (l : list (str * A)) : n <> k -> assoc n (assoc_del k l) = assoc n l.
Proof.
  intros H. induction l as [|[k' v] l IH]; cbn; [reflexivity|]. destruct (streq k k') eqn:E; cbn; rewrite IH; [|reflexivity].
  apply streq_eq in E. subst k'. destruct (streq n k) eqn:E2; [apply streq_eq in E2; contradiction | reflexivity].
Qed.
Theorem C44_unregistered_partial : forall K en name k st, exists s,
  run K en (HUnregister name k) st = run K en k s /\ assoc name (r_local s) = None
  /\ (forall n f, n <> name -> (finds_helper en s n f <-> finds_helper en st n f)) /\ r_scopes s = r_scopes st /\ r_out s = r_out st.
Proof.
  intros K en name k st. exists (up_local (assoc_del name (r_local st)) st). split; [reflexivity|]. split; [apply assoc_del_eq|]. split; [|auto].
  intros n f Hn. unfold finds_helper. cbn [r_local up_local]. rewrite assoc_del_neq by auto. reflexivity.
Qed.
(** The helper is not removed when the registering call ends. *)
Theorem C44_removed_refuted : once calls_reg (lit "{{#if true}}{{reg}}{{/if}}{{a}}") (JObj []) = AOk (lit "L").
Proof. vm_compute. reflexivity. Qed.

(** ** C45: partials *)
Lemma partial_name_ok K en src c st name s : partial_name K en src c st name s -> get_partial_name K en src c st = ROk name s.
Proof.
  intros H. destruct H; unfold get_partial_name; rewrite H.
  - rewrite H0. cbn [need]. rewrite bind_ret, streq_refl. reflexivity.
  - rewrite H0. cbn [need]. rewrite bind_ret. destruct (streq n partial_block) eqn:E; [apply streq_eq in E; subst n; reflexivity|]. rewrite H1. reflexivity.
  - rewrite (bind_ok _ _ _ _ _ H0). reflexivity.
Qed.
Lemma not_active name st : ~ In (SPartial name) (r_stack st) -> existsb (site_eq (SPartial name)) (r_stack st) = false.
Proof.
  intros H. destruct (existsb (site_eq (SPartial name)) (r_stack st)) eqn:E; [|reflexivity]. apply existsb_exists in E. destruct E as (x & Hx & E).
  destruct x; try discriminate E. cbn in E. apply streq_eq in E. subst. contradiction.
Qed.
(** what a partial call does: find the template, evaluate the hash and then the context argument, and render the
    template with the new scope on top; after it the scope, the template name and the call site are dropped *)
Theorem C45_partial_call : forall K en src c pb st name s0 t file params mh s1 args ms s2,
  partial_name K en src c st name s0 -> ~ In (SPartial name) (r_stack s0) ->
  partial_is en (entered name pb s0) name t file ->
  hash_of K en src c (with_file file (entered name pb s0)) params mh s1 -> values_of K en src (c_args c) s1 args ms s2 ->
  render_partial K en src c pb st
  = match renders_all K en t (up_scopes (partial_scope args params :: r_scopes s2) s2) with
    | ROk _ s => ROk tt (pop_stack (up_names (tl (r_names s)) (up_scopes (tl (r_scopes s)) s)))
    | RErr e s => RErr e s
    | RPanic p => RPanic p
    | RFuel => RFuel
    end.
Proof.
  intros K en src c pb st name s0 t file params mh s1 args ms s2 Hn Ha Hp Hh Hv. unfold render_partial.
  rewrite (bind_ok _ _ _ _ _ (partial_name_ok _ _ _ _ _ _ _ Hn)), bind_get, (not_active _ _ Ha), bind_upd.
  assert (E1 : (match pb with
      | Some t0 => upd (fun st0 => up_partials (assoc_set partial_block t0 (r_partials st0)) st0)
      | None => ret tt end) (up_stack (SPartial name :: r_stack s0) s0) = ROk tt (entered name pb s0)) by (unfold entered; destruct pb; [reflexivity | destruct s0; reflexivity]).
  rewrite (bind_ok _ _ _ _ _ E1), bind_get.
  assert (E2 : (match assoc name (r_partials (entered name pb s0)) with
      | Some t0 => ret t0
      | None => match assoc name (rg_templates (en_reg en)) with
                | Some te => upd (fun st0 => up_names (te_file te :: r_names st0) st0) ;; ret (te_tpl te)
                | None => fail (EPartialNotFound name) end end) (entered name pb s0) = ROk t (with_file file (entered name pb s0))).
  { destruct Hp as [[H ->]|[H (te & H1 & -> & ->)]]; rewrite H; [reflexivity|]. rewrite H1. reflexivity. }
  rewrite (bind_ok _ _ _ _ _ E2). rewrite (bind_ok _ _ _ _ _ (hash_ok _ _ _ _ _ _ _ _ Hh)). cbn [fst].
  assert (E3 : (match c_args c with
      | [] => ret (mkScope (Some (JObj params)) [])
      | _ => let* a := arguments K en src 0 (c_args c) in
             match fst a with x :: _ => ret (mkScope (Some x) params) | [] => ret (mkScope (Some (JObj params)) []) end end) s1 = ROk (partial_scope args params) s2).
  { pose proof (values_ok _ _ _ _ _ _ _ _ Hv 0) as Ea. destruct (c_args c) as [|a0 al]; [inversion Hv; subst; reflexivity|].
    rewrite (bind_ok _ _ _ _ _ Ea). cbn [fst]. destruct args; reflexivity. }
  rewrite (bind_ok _ _ _ _ _ E3), bind_upd, bind_get. unfold renders_all. unfold bind at 1. destruct (iter_nodes _ _ _ _ _ _) as [[] s| | |]; reflexivity.
Qed.
Theorem C45_not_found : forall K en src c pb st name s0,
  partial_name K en src c st name s0 -> ~ In (SPartial name) (r_stack s0) ->
  assoc name (r_partials (entered name pb s0)) = None -> assoc name (rg_templates (en_reg en)) = None ->
  exists s, render_partial K en src c pb st = RErr (EPartialNotFound name) s /\ r_out s = r_out s0.
Proof.
  intros K en src c pb st name s0 Hn Ha Hp Ht. exists (entered name pb s0). split; [|reflexivity]. unfold render_partial.
  rewrite (bind_ok _ _ _ _ _ (partial_name_ok _ _ _ _ _ _ _ Hn)), bind_get, (not_active _ _ Ha), bind_upd.
  assert (E1 : (match pb with
      | Some t0 => upd (fun st0 => up_partials (assoc_set partial_block t0 (r_partials st0)) st0)
      | None => ret tt end) (up_stack (SPartial name :: r_stack s0) s0) = ROk tt (entered name pb s0)) by (unfold entered; destruct pb; [reflexivity | destruct s0; reflexivity]).
  rewrite (bind_ok _ _ _ _ _ E1), bind_get, Hp, Ht. reflexivity.
Qed.
(** the block of the call is what [@partial-block] means inside *)
Theorem C45_partial_block : forall en name t s, partial_is en (entered name (Some t) s) partial_block t None.
Proof. intros en name t s. left. split; [|reflexivity]. cbn. apply assoc_set_eq. Qed.
(** A template that is registered renders with the scopes of the caller plus its own, and everything is restored. *)
Theorem C45_restored_partial : forall fuel en src c pb st name s0 t f params mh s1 args ms s2 s,
  all_helpers (balanced (Some 0)) (en_reg en) -> all_locals (balanced (Some 0)) s2 ->
  partial_name (tie fuel) en src c st name s0 -> ~ In (SPartial name) (r_stack s0) ->
  partial_is en (entered name pb s0) name t (Some f) ->
  hash_of (tie fuel) en src c (with_file (Some f) (entered name pb s0)) params mh s1 -> values_of (tie fuel) en src (c_args c) s1 args ms s2 ->
  r_names s2 = f :: r_names s0 ->
  renders_all (tie fuel) en t (up_scopes (partial_scope args params :: r_scopes s2) s2) = ROk tt s -> r_names s = r_names s2 ->
  exists s', render_partial (tie fuel) en src c pb st = ROk tt s' /\ r_scopes s' = r_scopes s2 /\ r_stack s' = tl (r_stack s2) /\ r_names s' = r_names s0 /\ r_out s' = r_out s.
Proof.
  intros fuel en src c pb st name s0 t f params mh s1 args ms s2 s Hr Hl Hn Ha Hp Hh Hv Nf Hs Ns. eexists. split.
  - rewrite (C45_partial_call (tie fuel) en src c pb st name s0 t (Some f) params mh s1 args ms s2 Hn Ha Hp Hh Hv), Hs. reflexivity.
  - assert (B : r_scopes s = r_scopes (up_scopes (partial_scope args params :: r_scopes s2) s2) /\ r_stack s = r_stack (up_scopes (partial_scope args params :: r_scopes s2) s2)).
    { destruct (bal_tie en fuel Hr) as (A & _ & _). assert (I2 : bal_inv (up_scopes (partial_scope args params :: r_scopes s2) s2)) by exact Hl.
      assert (X : UnaryFacts.spec bal_inv same_stacks any_err (iter_nodes (tp_src t) (fun n tr _ _ => k_node (tie fuel) en (tp_src t) n tr) None (r_hint (up_scopes (partial_scope args params :: r_scopes s2) s2)) (children (tp_node t)))).
      { apply (spec_iter _ _ _ bal_frame). intros. apply A. }
      specialize (X _ I2). unfold renders_all in Hs. rewrite Hs in X. exact (proj2 X). }
    destruct B as [B1 B2]. unfold pop_stack. cbn [r_scopes r_stack r_names r_out up_stack up_names up_scopes] in *. rewrite B1, B2, Ns, Nf. auto.
Qed.
(** the partial sees its context, its hash arguments, and the caller's variables *)
Definition prn (s : str) : registry := ins (lit "p") s reg0.
Definition show_name : helper := fun _ _ => HNames (fun _ b => HRet (Some (JStr b))).
Example C45_nonvacuous :
  [once (prn (lit "<{{x}}{{this}}{{y}}{{z}}>")) (lit "{{> p o x='1'}}") (JObj [(lit "o", JStr (lit "c")); (lit "y", JStr (lit "Y"))]);
   once (prn (lit "<{{> @partial-block}}>")) (lit "{{#> p}}in {{a}}{{/p}}") (JObj [(lit "a", JStr (lit "A"))]);
   once (prn (lit "<{{x}}>")) (lit "{{> (lookup o 'n') x='1'}}") (JObj [(lit "o", JObj [(lit "n", JStr (lit "p"))])])]
  = [AOk (lit "<1cY>"); AOk (lit "<in A>"); AOk (lit "<1>")].
Proof. vm_compute. reflexivity. Qed.
(** A helper asking for the names learns the name of the main template, and the file of the innermost partial that has one at its entry:
    right after a partial was entered that is the partial's own file; without one, and outside partials, the name of the main template. *)
Theorem C45_name_in_partial : forall K en k st name pb file s, r_names s = r_names (with_file (Some file) (entered name pb st)) ->
  run K en (HNames k) s = run K en (k (en_name en) (match file with Some f => f | None => en_name en end)) s.
Proof.
  intros K en k st name pb file s H. cbn [run]. rewrite bind_get. unfold current_name. rewrite H. cbn [with_file up_names r_names]. destruct file; reflexivity.
Qed.
Theorem C45_name_outside : forall K en k s, r_names s = [] -> run K en (HNames k) s = run K en (k (en_name en) (en_name en)) s.
Proof. intros K en k s H. cbn [run]. rewrite bind_get. unfold current_name. rewrite H. reflexivity. Qed.
(** Without a context argument [this] is not the current context but the object of the hash arguments. *)
Theorem C45_current_context_refuted :
  once (prn (lit "{{json this}}")) (lit "{{#with o}}{{> p}}{{/with}}") (JObj [(lit "o", JStr (lit "c"))]) = AOk (lit "{}").
Proof. vm_compute. reflexivity. Qed.
(** The partial block is still available after the call, and rendering it drops the name of the partial. *)
Theorem C45_partial_block_stays_refuted :
  once (prn (lit "<>")) (lit "{{#> p}}B{{/p}}{{> @partial-block}}") (JObj []) = AOk (lit "<>B").
Proof. vm_compute. reflexivity. Qed.
Theorem C45_name_restored_refuted :
  once (helper_insert (lit "name") show_name (prn (lit "{{name}} {{> @partial-block}}{{name}}"))) (lit "{{#> p}}B {{/p}}") (JObj []) = AOk (lit "p B t").
Proof. vm_compute. reflexivity. Qed.
