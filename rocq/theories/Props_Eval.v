(** * Props_Eval: paths evaluated by a helper (C72).
    [rc.evaluate(p)] and [rc.try_evaluate(p, kinds)] inside a helper: the steps [HEval]/[try_evaluate] of a helper program,
    whose continuation gets the result. *)
From Coq Require Import Lia String.
From Verif Require Import Str Lexer Json Ast ErrInfo Parser Render Helpers Registry Tests Spec_Values Spec_Helpers Spec_Blocks Spec_Calls Spec_Source Spec_Sem
  StrFacts LookupFacts EvalFacts SynPath SemFacts TotalFacts SynEval Props_Source.
Open Scope nat_scope. Open Scope list_scope.

Lemma evaluate_path en h t st : arg_head_ok h -> tail_ok t ->
  exists r, evaluate en (path_text h t) st = ROk r st /\ forall v, r = Some v <-> path_value (en_root en) (r_scopes st) h t v.
Proof.
  intros Hh Ht. destruct (path_alone (pl_penv (en_plat en)) h t Hh Ht) as (q & s & E & Hq). unfold evaluate. rewrite E.
  destruct (path_lookup _ q h t (en_root en) (r_scopes st) Hq) as (r & El & H). exists r. split; [|exact H]. unfold mlookup, bind, get, need, ret. rewrite El. reflexivity.
Qed.
(** ** The value of a path: the one it has as an argument in a template ([arg_value] of Spec_Sem, rules [av_path] and [av_no_path]),
    seen from the scopes the helper runs in; the helper goes on in the same state: nothing was written or changed *)
Theorem C72_evaluate : forall K en h t k st, arg_head_ok h -> tail_ok t ->
  (forall v, path_value (en_root en) (r_scopes st) h t v -> run K en (HEval (path_text h t) k) st = run K en (k (HOk (Some v))) st)
  /\ (no_value (en_root en) (r_scopes st) h t -> run K en (HEval (path_text h t) k) st = run K en (k (HOk None)) st).
Proof.
  intros K en h t k st Hh Ht. destruct (evaluate_path en h t st Hh Ht) as (r & E & H). cbn [run]. unfold mcatch. rewrite E. split.
  - intros v Hv. apply H in Hv. subst r. reflexivity.
  - intros Hn. destruct r as [v|]; [|reflexivity]. exfalso. apply (Hn v), H. reflexivity.
Qed.
(** [try_evaluate] with one type: the value, null if there is none, or the error naming the path, the type required and the type found *)
Theorem C72_try_evaluate : forall K en h t kd k st v, arg_head_ok h -> tail_ok t ->
  path_value (en_root en) (r_scopes st) h t v \/ (no_value (en_root en) (r_scopes st) h t /\ v = JNull) ->
  (kind_name v = type_str kd -> run K en (try_evaluate (path_text h t) [kd] k) st = run K en (k (HOk v)) st)
  /\ (kind_name v <> type_str kd ->
      run K en (try_evaluate (path_text h t) [kd] k) st = run K en (k (HErr (ETypeAssert (path_text h t) (type_str kd) (kind_name v)))) st).
Proof.
  intros K en h t kd k st v Hh Ht Hv. unfold try_evaluate.
  set (k' := fun r => match r with HErr e => _ | HOk o => _ end).
  assert (E : run K en (HEval (path_text h t) k') st = run K en (match assert_kinds v [kd] with Some kind => k (HErr (ETypeAssert (path_text h t) kind (type_str (type_of v)))) | None => k (HOk v) end) st).
  { destruct (C72_evaluate K en h t k' st Hh Ht) as [A B]. destruct Hv as [Hv|[Hv ->]]; [now rewrite (A _ Hv)|now rewrite (B Hv)]. }
  rewrite E. clear E. destruct v, kd; (split; [intros H; try discriminate H; reflexivity | intros H; try reflexivity; exfalso; apply H; reflexivity]).
Qed.
(** ** Any other text: whatever the text, evaluating it ends, writes nothing, changes nothing, and gives a value found, no value or a syntax error
    (or panics as the parser does: C10) *)
Theorem C72_any_text : forall K en s k st,
  (exists r, run K en (HEval s k) st = run K en (k (HOk r)) st)
  \/ (exists e, run K en (HEval s k) st = run K en (k (HErr (ESyntax e))) st)
  \/ (exists p, run K en (HEval s k) st = RPanic p).
Proof.
  intros K en s k st. cbn [run]. unfold mcatch, evaluate. pose proof (path_from_str_total (pl_penv (en_plat en)) s) as T.
  destruct (path_from_str (pl_penv (en_plat en)) s) as [[p|] fs|e fs|p|]; [|left; exists None; reflexivity|right; left; exists e; reflexivity|right; right; exists p; reflexivity|exfalso; apply T; reflexivity].
  unfold mlookup, bind, get. destruct (lookup s p (en_root en) (r_scopes st)) as [r|]; cbn [need]; [left; exists r; reflexivity|right; right; exists PanSlice; reflexivity].
Qed.
(** ** Text that is no path is not always refused: what precedes the first word and what follows the path is skipped *)
Definition probe (s : string) : registry :=
  helper_insert (lit "probe") (fun _ _ => HEval (lit s) (fun r => match r with HOk (Some v) => HRet (Some v) | HOk None => HRet (Some (JStr (lit "none"))) | HErr (ESyntax _) => HRet (Some (JStr (lit "refused"))) | HErr _ => HPanic end)) reg0.
Definition probe_data : json := JObj [(lit "a", JStr (lit "A")); (lit "b", JObj [(lit "a", JStr (lit "BA"))])].
Theorem C72_not_a_path_refuted :
  (forall s, In s ["(a)"; "a b"; "1 a"; "|a"; "=a"; "a~"]%string -> once (probe s) (lit "{{probe}}") probe_data = AOk (lit "A"))
  /\ (forall s, In s [""; "1"; "true"; "}}"]%string -> once (probe s) (lit "{{probe}}") probe_data = AOk (lit "none"))
  /\ (forall s, In s ["a..b"; "."; "}}a"]%string -> once (probe s) (lit "{{probe}}") probe_data = AOk (lit "refused")).
Proof. repeat split; intros s H; repeat (destruct H as [<-|H]; [vm_compute; reflexivity|]); destruct H. Qed.

(** ** Non-vacuity: the same paths, evaluated by a helper and as arguments *)
Lemma C72_nonvacuous :
  arg_head_ok (HdName (lit "b")) /\ tail_ok [(false, SName (lit "a"))]
  /\ path_value probe_data [] (HdName (lit "b")) [(false, SName (lit "a"))] (JStr (lit "BA"))
  /\ no_value probe_data [] (HdName (lit "x")) []
  /\ (forall s, In s ["b.a"; "@root.b.a"; "this.b.a"; "./b/a"; "b.[a]"]%string -> once (probe s) (lit "{{probe}}") probe_data = AOk (lit "BA"))
  /\ once (probe "a") (lit "{{probe}}{{#with b}}{{probe}}{{/with}}") probe_data = AOk (lit "ABA").
Proof.
  split; [left; cbn [head_ok]; ok_side|]. split; [ok_side|].
  split; [apply pv_name, find_in_scopes_spec; vm_compute; reflexivity|].
  split; [intros v H; inversion H as [n t v' Hv| | | | | | |]; apply find_in_scopes_spec in Hv; vm_compute in Hv; discriminate|].
  split; [|vm_compute; reflexivity]. intros s H. repeat (destruct H as [<-|H]; [vm_compute; reflexivity|]). destruct H.
Qed.
