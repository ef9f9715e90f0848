(** * Spec_Calls: the vocabulary of the properties about calls, variables and partials.  No proofs in this file. *)
From Coq Require Import String.
From Verif Require Import Str Json Ast Parser Render Helpers Spec_Helpers.
Open Scope nat_scope. Open Scope list_scope.

(** ** Names *)
(** the helper a call by name finds: a local helper first, then a registered one *)
Definition finds_helper (en : env) (st : rst) (name : str) (f : helper) : Prop :=
  assoc name (r_local st) = Some f \/ (assoc name (r_local st) = None /\ assoc name (rg_helpers (en_reg en)) = Some f).
Definition no_helper (en : env) (st : rst) (name : str) : Prop := forall f, ~ finds_helper en st name f.
(** a call [{{name ...}}] by a single identifier *)
Definition calls_name (src : str) (c : call) (p : path) (name : str) : Prop :=
  c_partial c = false /\ c_target c = TPath p /\ pa_explicit p = false /\ path_is_simple p = true /\ path_str src p = Some name.
(** the variable [p] has the value [v] in state [st]; the variable does not exist *)
Definition variable_is (en : env) (src : str) (p : path) (st : rst) (v : json) : Prop := looks_up en src p st (eq v).
Definition variable_missing (en : env) (src : str) (p : path) (st : rst) : Prop := looks_up en src p st (fun _ => False).

(** ** Arguments *)
(** the value of an argument: literals are themselves, variables their value, sub-expressions the value of
    their call; what has no value is null (and its source text is remembered) *)
Inductive value_of (K : knot) (en : env) (src : str) : param -> rst -> json -> option str -> rst -> Prop :=
| value_literal v sp ln st : value_of K en src (VJson v sp ln) st v None st
| value_path p v st : variable_is en src p st v -> value_of K en src (VPath p) st v None st
| value_no_path p s st : variable_missing en src p st -> path_str src p = Some s -> value_of K en src (VPath p) st JNull (Some s) st
| value_sub c v st s : k_stmt K en src c st = ROk (Some v) s -> value_of K en src (VSub c) st v None s
| value_no_sub c t st s : k_stmt K en src c st = ROk None s -> call_str src c = Some t -> value_of K en src (VSub c) st JNull (Some t) s.
(** the values of a list of arguments, evaluated in order, and for each the text remembered if it had no value *)
Inductive values_of (K : knot) (en : env) (src : str) : list param -> rst -> list json -> list (option str) -> rst -> Prop :=
| values_nil st : values_of K en src [] st [] [] st
| values_cons p ps st v m s1 vs ms s : value_of K en src p st v m s1 -> values_of K en src ps s1 vs ms s -> values_of K en src (p :: ps) st (v :: vs) (m :: ms) s.
(** the map of hash arguments [k=v], evaluated in the order of the hash table, and the texts of those without a value *)
Definition hash_of (K : knot) (en : env) (src : str) (c : call) (st : rst) (h : list (str * json)) (mh : list (str * option str)) (s : rst) : Prop :=
  exists vs ms, values_of K en src (map snd (pl_order (en_plat en) src c)) st vs ms s
    /\ h = fold_left (fun m kv => obj_insert (fst kv) (snd kv) m) (combine (map fst (pl_order (en_plat en) src c)) vs) []
    /\ mh = combine (map fst (pl_order (en_plat en) src c)) ms.

(** what [ctx.missing(i)] and [ctx.missing_param(k)] answer: the text of an argument without a value, nothing for one
    that has a value (even null) and for one that was not given *)
Definition remembers (ctx : hctx) (ms : list (option str)) (mh : list (str * option str)) : Prop :=
  (forall i, (forall t, nth_error ms i = Some (Some t) -> ctx_missing ctx i = Some (JStr t))
          /\ ((forall t, nth_error ms i <> Some (Some t)) -> ctx_missing ctx i = None))
  /\ (NoDup (map fst mh) -> forall k, (forall t, In (k, Some t) mh -> ctx_missing_param ctx k = Some (JStr t))
          /\ ((forall t, ~ In (k, Some t) mh) -> ctx_missing_param ctx k = None)).
(** the context of a helper call: these arguments, this name, this text and property *)
Definition context_is (ctx : hctx) (c : call) (src name : str) (args : list json) (params : list (str * json)) (text : option str) (prop : option (str * json)) : Prop :=
  hc_call ctx = c /\ hc_src ctx = src /\ hc_name ctx = name /\ hc_args ctx = args /\ hc_params ctx = params /\ hc_text ctx = text /\ hc_property ctx = prop.
(** [m] started in [st]: enters the call site, evaluates the arguments, runs the helper [find] gives in the state
    after that evaluation (if any) once with these arguments and with the block [content], and leaves the call site *)
Definition calls_helper {A} (K : knot) (en : env) (src name : str) (find : rst -> helper -> Prop) (c : call) (content : option tpl) (text : option str) (prop : option (str * json))
    (m : M A) (give : option json -> A) (st : rst) : Prop :=
  let site := match content with Some _ => SBlock name | None => SHelper name end in
  count_site site (r_stack st) < stack_max ->
  forall args ms s1 params mh s2, values_of K en src (c_args c) (up_stack (site :: r_stack st) st) args ms s1 -> hash_of K en src c s1 params mh s2 ->
  forall f, find s2 f -> exists ctx, context_is ctx c src name args params text prop /\ remembers ctx ms mh
    /\ m st = match run K en (f ctx content) s2 with
              | ROk v s => ROk (give v) (pop_stack s)
              | RErr e s => RErr e s
              | RPanic p => RPanic p
              | RFuel => RFuel
              end.

(** ** Partials *)
(** the name of the partial: an identifier, [@partial-block], or the value of a sub-expression *)
Inductive partial_name (K : knot) (en : env) (src : str) (c : call) : rst -> str -> rst -> Prop :=
| pname_block p st : c_target c = TPath p -> path_str src p = Some partial_block -> partial_name K en src c st partial_block st
| pname_ident p n st : c_target c = TPath p -> path_str src p = Some n -> path_is_simple p = true -> partial_name K en src c st n st
| pname_sub sub v st s : c_target c = TSub sub -> k_stmt K en src sub st = ROk v s ->
    partial_name K en src c st (stringify (pl_fstr (en_plat en)) (match v with Some v => v | None => JNull end)) s.
(** the template a partial name means in state [st]: the partial block, or a registered template; with its file name *)
Definition partial_is (en : env) (st : rst) (name : str) (t : tpl) (file : option (option str)) : Prop :=
  (assoc name (r_partials st) = Some t /\ file = None)
  \/ (assoc name (r_partials st) = None /\ exists te, assoc name (rg_templates (en_reg en)) = Some te /\ t = te_tpl te /\ file = Some (te_file te)).
(** the scope of the partial: the first argument with the hash arguments as its variables; without argument the object of the hash arguments *)
Definition partial_scope (args : list json) (params : list (str * json)) : scope :=
  match args with
  | x :: _ => mkScope (Some x) params
  | [] => mkScope (Some (JObj params)) []
  end.
(** entering the partial [name] from [st] with the block [pb] *)
Definition entered (name : str) (pb : option tpl) (st : rst) : rst :=
  up_partials (match pb with Some t => assoc_set partial_block t (r_partials st) | None => r_partials st end) (up_stack (SPartial name :: r_stack st) st).
Definition with_file (file : option (option str)) (st : rst) : rst :=
  match file with Some f => up_names (f :: r_names st) st | None => st end.
(** rendering all nodes of a template in order *)
Definition renders_all (K : knot) (en : env) (t : tpl) : M unit := fun st =>
  iter_nodes (tp_src t) (fun n tr _ _ => k_node K en (tp_src t) n tr) None (r_hint st) (children (tp_node t)) st.
