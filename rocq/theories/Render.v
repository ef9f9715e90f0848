(** * Render: model of /repo/src/render/{mod,scope,context,assert}.rs, src/parser/iter.rs, src/trim.rs,
    src/output.rs and the parts of src/registry.rs and src/template.rs the renderer reads.
    No proofs in this file. *)
From Coq Require Import String.
From Verif Require Import Str Json Ast ErrInfo Parser.
From Verif Require Export Messages.
Open Scope nat_scope. Open Scope list_scope.

(** A template reference as the renderer handles it: a node together with the source its spans index
    (in Rust every node borrows its source). *)
Record tpl := mkTpl { tp_src : str; tp_node : node }.

(** src/render/scope.rs:12-15 [Scope]; [locals] is always a JSON object, kept as its sorted map. *)
Record scope := mkScope { sc_value : option json; sc_locals : list (str * json) }.
(** src/render/scope.rs:19-24 [Scope::new] *)
Definition scope_new : scope := mkScope None [].
(** src/render/scope.rs:35-40 [set_local]: the key gets an [@] prefix *)
Definition set_local (name : str) (v : json) (s : scope) : scope :=
  mkScope (sc_value s) (obj_insert (64%N :: name) v (sc_locals s)).
(** src/render/scope.rs:54-56 [set_base_value] *)
Definition set_base_value (v : json) (s : scope) : scope := mkScope (Some v) (sc_locals s).

(** src/render/context.rs:18-26 [MissingValue] *)
Inductive missing_value :=
| MissArg (i : nat) (v : json)
| MissParam (k : str) (v : json).

(** src/render/context.rs:46-56 [Context]; [hc_src] is the source borrowed by [call] *)
Record hctx := mkHctx {
  hc_call : call; hc_src : str; hc_name : str; hc_args : list json; hc_params : list (str * json);
  hc_text : option str; hc_property : option (str * json); hc_missing : list missing_value }.

(** [Result<A, HelperError>] as a helper sees it. *)
Inductive hres (A : Type) := HOk (a : A) | HErr (e : rerr).
Arguments HOk {A}. Arguments HErr {A}.

(** Helper programs (src/helper/mod.rs [Helper::call], a dyn trait method): the sequence of calls a
    helper makes on the renderer, each continuation receiving the result of the call, so that helpers
    may also catch errors.  A helper is a deterministic function of its context and of these results. *)
Inductive log_level := LvError | LvDebug | LvWarn | LvTrace | LvInfo.   (* the macros error!, debug!, ... of the log crate *)
Inductive hprog :=
| HRet (v : option json)
| HFail (e : rerr)
| HPanic
| HTemplate (t : tpl) (k : hres unit -> hprog)                    (* rc.template(node) *)
| HRender (t : tpl) (k : hres unit -> hprog)                      (* rc.render(node) *)
| HBuffer (t : tpl) (k : hres str -> hprog)                       (* rc.buffer(node) *)
| HOnce (file content : str) (data : json) (k : hres str -> hprog)  (* rc.once(file, content, data) *)
| HInverse (t : tpl) (k : hres (option tpl) -> hprog)             (* rc.inverse(node) *)
| HWrite (s : str) (esc : bool) (k : hres nat -> hprog)           (* rc.write / rc.write_escaped *)
| HOut (s : str) (k : hres nat -> hprog)                          (* rc.out().write_str(s) *)
| HPushScope (s : scope) (k : hprog)                              (* rc.push_scope *)
| HPopScope (k : option scope -> hprog)                           (* rc.pop_scope *)
| HScopeMut (f : scope -> scope) (k : hprog)                      (* if let Some(s) = rc.scope_mut() *)
| HEval (p : str) (k : hres (option json) -> hprog)               (* rc.evaluate(path) *)
| HRegister (name : str) (h : hctx -> option tpl -> hprog) (k : hprog)   (* rc.register_local_helper *)
| HUnregister (name : str) (k : hprog)                            (* rc.unregister_local_helper *)
| HGetTemplate (name : str) (k : option tpl -> hprog)             (* rc.get_template *)
| HData (k : json -> hprog)                                       (* rc.data() *)
| HNames (k : str -> str -> hprog)                                (* rc.template_name(), rc.current_name() *)
| HEscape (s : str) (k : str -> hprog)                            (* rc.escape(s) *)
| HLog (level : log_level) (line : str) (k : hprog).              (* error!("{}", line) etc.: src/helper/log.rs:52-58 *)

Definition helper := hctx -> option tpl -> hprog.

(** src/template.rs:31-34 [Template]: source, AST and file name *)
Record template := mkTemplate { te_src : str; te_node : node; te_file : option str }.
Definition te_tpl (t : template) : tpl := mkTpl (te_src t) (te_node t).
(** src/template.rs:98-102 [Display for Template] *)
Definition template_display (t : template) : option str := node_display (te_src t) (te_node t).

(** src/registry.rs:20-26 [Registry], src/helper/mod.rs:178-180 [HelperRegistry], 284-307 [HandlerRegistry] *)
Record registry := mkReg {
  rg_helpers : list (str * helper);
  rg_link : option helper;
  rg_missing : option helper;
  rg_block_missing : option helper;
  rg_templates : list (str * template);
  rg_escape : str -> str;
  rg_strict : bool }.

(** Result of one [Output::write_str] call. *)
Inductive wres := WOk (n : nat) | WErr (kind : nat).

(** Platform facts: the parser's, f64 printing, HashMap iteration order of a call's hash parameters,
    the text of I/O errors, and the "links" cargo feature. *)
Record plat := mkPlat {
  pl_penv : penv;
  pl_fstr : spec_float -> str;
  pl_order : str -> call -> list (str * param);
  pl_iotext : nat -> str;
  pl_links : bool }.

(** What stays fixed during one render: src/render/mod.rs:90-104 [registry], [name], [root], [writer].
    The writer is an oracle from the history of [write_str] calls to the result of the next one. *)
Record env := mkEnv {
  en_plat : plat; en_reg : registry; en_name : str; en_root : json;
  en_write : list str -> str -> wres }.

(** src/render/mod.rs:60-67 [CallSite] *)
Inductive site := SPartial (n : str) | SHelper (n : str) | SBlock (n : str).
Definition site_eq (a b : site) : bool :=
  match a, b with
  | SPartial x, SPartial y | SHelper x, SHelper y | SBlock x, SBlock y => streq x y
  | _, _ => false
  end.

(** src/render/mod.rs:90-104 [Render], mutable part.  Vec stacks are lists whose head is the top.
    [local_helpers] is an [Rc<RefCell<HashMap>>] updated through [Rc::make_mut], i.e. a persistent map. *)
Record rst := mkR {
  r_local : list (str * helper);
  r_partials : list (str * tpl);
  r_scopes : list scope;
  r_trim : trim_state;
  r_hint : option trim_hint;
  r_end : option trim_hint;
  r_stack : list site;
  r_names : list (option str);
  r_out : list str }.        (* arguments of the [write_str] calls made so far, in order *)

(** src/render/mod.rs:110-134 [Render::new] *)
Definition r_new (stack : list site) : rst :=
  mkR [] [] [] (mkTrim false false) None None stack [] [].

Definition up_local v st := mkR v (r_partials st) (r_scopes st) (r_trim st) (r_hint st) (r_end st) (r_stack st) (r_names st) (r_out st).
Definition up_partials v st := mkR (r_local st) v (r_scopes st) (r_trim st) (r_hint st) (r_end st) (r_stack st) (r_names st) (r_out st).
Definition up_scopes v st := mkR (r_local st) (r_partials st) v (r_trim st) (r_hint st) (r_end st) (r_stack st) (r_names st) (r_out st).
Definition up_trim v st := mkR (r_local st) (r_partials st) (r_scopes st) v (r_hint st) (r_end st) (r_stack st) (r_names st) (r_out st).
Definition up_hint v st := mkR (r_local st) (r_partials st) (r_scopes st) (r_trim st) v (r_end st) (r_stack st) (r_names st) (r_out st).
Definition up_end v st := mkR (r_local st) (r_partials st) (r_scopes st) (r_trim st) (r_hint st) v (r_stack st) (r_names st) (r_out st).
Definition up_stack v st := mkR (r_local st) (r_partials st) (r_scopes st) (r_trim st) (r_hint st) (r_end st) v (r_names st) (r_out st).
Definition up_names v st := mkR (r_local st) (r_partials st) (r_scopes st) (r_trim st) (r_hint st) (r_end st) (r_stack st) v (r_out st).
Definition up_out v st := mkR (r_local st) (r_partials st) (r_scopes st) (r_trim st) (r_hint st) (r_end st) (r_stack st) (r_names st) v.

(** Result of a rendering function: success, [Err], Rust panic, or out of fuel.  The state is kept on
    errors because a helper may catch them. *)
Inductive rres (A : Type) := ROk (a : A) (s : rst) | RErr (e : rerr) (s : rst) | RPanic (p : panic) | RFuel.
Arguments ROk {A}. Arguments RErr {A}. Arguments RPanic {A}. Arguments RFuel {A}.
Definition M (A : Type) := rst -> rres A.
Definition ret {A} (a : A) : M A := fun st => ROk a st.
Definition fail {A} (e : rerr) : M A := fun st => RErr e st.
Definition mpanic {A} (p : panic) : M A := fun _ => RPanic p.
Definition bind {A B} (m : M A) (f : A -> M B) : M B :=
  fun st => match m st with
            | ROk a st => f a st
            | RErr e st => RErr e st
            | RPanic p => RPanic p
            | RFuel => RFuel
            end.
(** Run [m]; hand [Ok] or [Err] to the continuation (a helper looking at a [Result]). *)
Definition mcatch {A B} (m : M A) (f : hres A -> M B) : M B :=
  fun st => match m st with
            | ROk a st => f (HOk a) st
            | RErr e st => f (HErr e) st
            | RPanic p => RPanic p
            | RFuel => RFuel
            end.
Definition get : M rst := fun st => ROk st st.
Definition upd (f : rst -> rst) : M unit := fun st => ROk tt (f st).
(** Use of a slice of the source ([None] = panic). *)
Definition need {A} (o : option A) : M A := match o with Some a => ret a | None => mpanic PanSlice end.
Notation "'let*' x := m 'in' k" := (bind m (fun x => k)) (at level 200, x name, right associativity).
Notation "m ;; k" := (bind m (fun _ => k)) (at level 199, right associativity).

(** ** Output *)
(** [self.writer.write_str(s).map_err(RenderError::from)] *)
Definition emit (en : env) (s : str) : M nat := fun st =>
  let st' := up_out (r_out st ++ [s]) st in
  match en_write en (r_out st) s with
  | WOk n => ROk n st'
  | WErr k => RErr (EIo k) st'
  end.
(** src/output.rs:36-73 [StringOutput]: never fails, accepts everything *)
Definition string_writer : list str -> str -> wres := fun _ s => WOk (blen s).

(** src/render/mod.rs:1092-1109 [write_str] *)
Definition write_str (en : env) (s : str) (esc : bool) : M nat :=
  let* st := get in
  let v := if ts_start (r_trim st) then trim_start s else s in
  let v := if ts_end (r_trim st) then trim_end v else v in
  match v with
  | [] => ret 0
  | _ => emit en (if esc then rg_escape (en_reg en) v else v)
  end.

(** ** Variables *)
(** [path.components().iter().map(|c| c.as_value())], eagerly *)
Fixpoint comp_values (src : str) (cs : list component) : option (list str) :=
  match cs with
  | [] => Some []
  | c :: cs =>
      match comp_value src c, comp_values src cs with
      | Some v, Some vs => Some (v :: vs)
      | _, _ => None
      end
  end.

(** One step of the scope search: locals first, then the base value (src/render/mod.rs:477-494, 515-528) *)
Definition find_in_scope (parts : list str) (s : scope) : option json :=
  match find_parts parts (JObj (sc_locals s)) with
  | Some v => Some v
  | None => match sc_value s with Some b => find_parts parts b | None => None end
  end.
Fixpoint find_in_scopes (parts : list str) (root : json) (ss : list scope) : option json :=
  match ss with
  | [] => find_parts parts root
  | s :: ss =>
      match find_in_scope parts s with
      | Some v => Some v
      | None => find_in_scopes parts root ss
      end
  end.

(** src/render/mod.rs:439-447 the value of [this] *)
Definition this_value (root : json) (ss : list scope) : json :=
  match ss with
  | s :: _ => match sc_value s with Some b => b | None => root end
  | [] => root
  end.

(** src/render/mod.rs:423-534 [lookup]; outer [None] = slice panic.  The vector [all] of the parents
    case is indexed from its end, i.e. it is [scopes] (innermost first) followed by the root. *)
Definition lookup (src : str) (p : path) (root : json) (ss : list scope) : option (option json) :=
  if pa_absolute p then Some None
  else
    match comp_values src (pa_comps p) with
    | None => None
    | Some parts =>
        Some
          (if pa_root p then find_parts (tl parts) root
           else if pa_explicit p then
             if length (pa_comps p) =? 1 then Some (this_value root ss)
             else find_parts (tl parts) (this_value root ss)
           else if path_is_local p then
             match ss with
             | s :: _ => find_parts parts (JObj (sc_locals s))
             | [] => None
             end
           else if (0 <? pa_parents p)%N then
             let n := N.to_nat (pa_parents p) in
             match nth_error ss n with
             | Some s => find_in_scope parts s
             | None => if n =? length ss then find_parts parts root else None
             end
           else find_in_scopes parts root ss)
    end.
Definition mlookup (en : env) (src : str) (p : path) : M (option json) :=
  let* st := get in need (lookup src p (en_root en) (r_scopes st)).

(** src/render/mod.rs:392-400 [evaluate] *)
Definition evaluate (en : env) (s : str) : M (option json) :=
  match path_from_str (pl_penv (en_plat en)) s with
  | POk (Some p) _ => mlookup en s p
  | POk None _ => ret None
  | PErr e _ => fail (ESyntax e)
  | PPanic p => mpanic p
  | PFuel => fun _ => RFuel
  end.

(** ** Iteration: src/parser/iter.rs *)
(** src/parser/iter.rs:68-94 [BranchIter::next] *)
Definition children (n : node) : list node :=
  match n with NDoc ns => ns | NBlock b => b_nodes b | _ => [] end.
Definition is_block (n : node) : bool := match n with NBlock _ => true | _ => false end.

(** src/parser/iter.rs:125-174 [EventIter::next], driving [step node trim first last] *)
Fixpoint iter_nodes (src : str) (step : node -> trim_state -> bool -> bool -> M unit)
    (prev : option bool) (hint : option trim_hint) (ns : list node) : M unit :=
  match ns with
  | [] => ret tt
  | n :: rest =>
      let first := match prev with None => true | Some _ => false end in
      let '(start, hint') :=
        match prev with
        | Some b => (b, hint)
        | None => (match hint with Some h => th_after h | None => false end, None)
        end in
      let* stop := match rest with
                   | [] => ret false
                   | m :: _ => let* h := need (node_trim src m) in ret (th_before h)
                   end in
      let* hn := need (node_trim src n) in
      let prev' := if is_block n then None else Some (th_after hn) in
      step n (mkTrim start stop) first (match rest with [] => true | _ => false end) ;;
      iter_nodes src step prev' hint' rest
  end.

(** ** The recursive knot: [render_node], [call] and [statement] of one fuel level lower *)
Record knot := mkKnot {
  k_node : env -> str -> node -> trim_state -> M unit;
  k_call : env -> str -> call -> M (option json);
  k_stmt : env -> str -> call -> M (option json) }.

(** src/render/mod.rs:199-204 [render] *)
Definition render_ (K : knot) (en : env) (t : tpl) : M unit :=
  iter_nodes (tp_src t) (fun n tr _ _ => k_node K en (tp_src t) n tr) None None (children (tp_node t)).

(** src/render/mod.rs:307-345 [template]; [hint] is assigned in the last iteration, so it stays [None]
    when there is no child node *)
Definition template_ (K : knot) (en : env) (t : tpl) : M unit :=
  let src := tp_src t in
  let node := tp_node t in
  let* st := get in
  iter_nodes src (fun n tr first last =>
      let* tr := (if first then
                    let* h := need (node_trim src node) in
                    ret (if th_after h then mkTrim true (ts_end tr) else tr)
                  else ret tr) in
      let* tr := (match last, node with
                  | true, NBlock b =>
                      let* h := need (block_trim_close src b) in
                      ret (if th_before h then mkTrim (ts_start tr) true else tr)
                  | _, _ => ret tr
                  end) in
      k_node K en src n tr) None (r_hint st) (children node) ;;
  let* hint := (match children node, node with
                | _ :: _, NBlock b => let* h := need (block_trim_close src b) in ret (Some h)
                | _, _ => ret None
                end) in
  upd (up_end hint).

(** src/render/mod.rs:263-302 [inverse], the loop over the conditions *)
Fixpoint inverse_go (K : knot) (en : env) (src : str) (alt : option node) (cs : list node) : M (option node) :=
  match cs with
  | [] => ret alt
  | NBlock b :: cs' =>
      if call_is_empty (b_call b) then inverse_go K en src (Some (NBlock b)) cs'
      else
        let* v := k_call K en src (b_call b) in
        match v with
        | Some v => if is_truthy v then ret (Some (NBlock b)) else inverse_go K en src alt cs'
        | None => inverse_go K en src alt cs'
        end
  | _ :: cs' => inverse_go K en src alt cs'
  end.
Definition inverse (K : knot) (en : env) (t : tpl) : M (option tpl) :=
  match tp_node t with
  | NBlock b =>
      let* n := inverse_go K en (tp_src t) None (b_conds b) in
      ret (match n with Some n => Some (mkTpl (tp_src t) n) | None => None end)
  | _ => ret None
  end.

(** [registry] with another writer / template name / root data *)
Definition en_with_string (en : env) : env :=
  mkEnv (en_plat en) (en_reg en) (en_name en) (en_root en) string_writer.
Definition en_once (en : env) (name : str) (root : json) : env :=
  mkEnv (en_plat en) (en_reg en) name root string_writer.

(** src/render/mod.rs:352-378 [buffer]: a new renderer with the same call stack and scopes *)
Definition buffer (K : knot) (en : env) (t : tpl) : M str := fun st =>
  match template_ K (en_with_string en) t (up_scopes (r_scopes st) (r_new (r_stack st))) with
  | ROk _ st' => ROk (concat (r_out st')) st
  | RErr e _ => RErr e st
  | RPanic p => RPanic p
  | RFuel => RFuel
  end.

(** src/render/mod.rs:173-188 [once] and src/registry.rs:294-311 [once_stack] *)
Definition once_ (K : knot) (en : env) (file content : str) (data : json) : M str := fun st =>
  let pl := en_plat en in
  match compile (pl_penv pl) (mkOpts file 0 0) content with
  | POk n _ =>
      match render_ K (en_once en file data) (mkTpl content n) (r_new (r_stack st)) with
      | ROk _ st' => ROk (concat (r_out st')) st
      | RErr e _ => RErr (EMessage (rerr_msg (pl_iotext pl) e)) st
      | RPanic p => RPanic p
      | RFuel => RFuel
      end
  | PErr e _ => RErr (EMessage (rerr_msg (pl_iotext pl) (ESyntax e))) st
  | PPanic p => RPanic p
  | PFuel => RFuel
  end.

(** src/render/mod.rs:158-162 [current_name] *)
Definition current_name (en : env) (st : rst) : str :=
  match r_names st with
  | Some n :: _ => n
  | _ => en_name en
  end.

(** ** Running a helper *)
Fixpoint run (K : knot) (en : env) (p : hprog) {struct p} : M (option json) :=
  match p with
  | HRet v => ret v
  | HFail e => fail e
  | HPanic => mpanic PanUnwrap
  | HTemplate t k => mcatch (template_ K en t) (fun r => run K en (k r))
  | HRender t k => mcatch (render_ K en t) (fun r => run K en (k r))
  | HBuffer t k => mcatch (buffer K en t) (fun r => run K en (k r))
  | HOnce f c d k => mcatch (once_ K en f c d) (fun r => run K en (k r))
  | HInverse t k => mcatch (inverse K en t) (fun r => run K en (k r))
  | HWrite s esc k => mcatch (write_str en s esc) (fun r => run K en (k r))
  | HOut s k => mcatch (emit en s) (fun r => run K en (k r))
  | HPushScope s k => upd (fun st => up_scopes (s :: r_scopes st) st) ;; run K en k
  | HPopScope k =>
      let* st := get in
      match r_scopes st with
      | s :: ss => upd (up_scopes ss) ;; run K en (k (Some s))
      | [] => run K en (k None)
      end
  | HScopeMut f k =>
      upd (fun st => match r_scopes st with
                     | s :: ss => up_scopes (f s :: ss) st
                     | [] => st
                     end) ;; run K en k
  | HEval s k => mcatch (evaluate en s) (fun r => run K en (k r))
  | HRegister name h k => upd (fun st => up_local (assoc_set name h (r_local st)) st) ;; run K en k
  | HUnregister name k => upd (fun st => up_local (assoc_del name (r_local st)) st) ;; run K en k
  | HGetTemplate name k =>
      run K en (k (match assoc name (rg_templates (en_reg en)) with
                   | Some t => Some (te_tpl t)
                   | None => None
                   end))
  | HData k => run K en (k (en_root en))
  | HNames k => let* st := get in run K en (k (en_name en) (current_name en st))
  | HEscape s k => run K en (k (rg_escape (en_reg en) s))        (* src/render/mod.rs:222-224 *)
  | HLog _ _ k => run K en k     (* the logger is a process-wide sink outside the renderer; [Spec_Helpers.logs] reads the records *)
  end.

(** ** Calls *)
(** src/render/mod.rs:537-610, one value: [Some v] or [None] with the raw text when missing *)
Definition eval_param (K : knot) (en : env) (src : str) (p : param) : M (json * option str) :=
  match p with
  | VJson v _ _ => ret (v, None)
  | VPath p =>
      let* v := mlookup en src p in
      match v with
      | Some v => ret (v, None)
      | None => let* s := need (path_str src p) in ret (JNull, Some s)
      end
  | VSub c =>
      let* v := k_stmt K en src c in
      match v with
      | Some v => ret (v, None)
      | None => let* s := need (call_str src c) in ret (JNull, Some s)
      end
  end.

(** src/render/mod.rs:537-568 [arguments] *)
Fixpoint arguments (K : knot) (en : env) (src : str) (i : nat) (ps : list param)
  : M (list json * list missing_value) :=
  match ps with
  | [] => ret ([], [])
  | p :: ps =>
      let* r := eval_param K en src p in
      let* rest := arguments K en src (S i) ps in
      ret (fst r :: fst rest,
           match snd r with Some s => MissArg i (JStr s) :: snd rest | None => snd rest end)
  end.
(** src/render/mod.rs:571-610 [hash]: parameters in HashMap order, inserted into a BTreeMap *)
Fixpoint hash_go (K : knot) (en : env) (src : str) (ps : list (str * param)) (acc : list (str * json))
  : M (list (str * json) * list missing_value) :=
  match ps with
  | [] => ret (acc, [])
  | (k, p) :: ps =>
      let* r := eval_param K en src p in
      let* rest := hash_go K en src ps (obj_insert k (fst r) acc) in
      ret (fst rest,
           match snd r with Some s => MissParam k (JStr s) :: snd rest | None => snd rest end)
  end.
Definition hash (K : knot) (en : env) (src : str) (c : call) : M (list (str * json) * list missing_value) :=
  hash_go K en src (pl_order (en_plat en) src c) [].

(** src/render/mod.rs:43 [STACK_MAX] *)
Definition stack_max : nat := 32.

Inductive htarget := ByName (n : str) | ByRef (h : helper).

Fixpoint count_site (s : site) (l : list site) : nat :=
  match l with
  | [] => 0
  | x :: l => if site_eq x s then S (count_site s l) else count_site s l
  end.

Definition pop_stack (st : rst) : rst := up_stack (tl (r_stack st)) st.

(** src/render/mod.rs:637-695 [invoke] *)
Definition invoke (K : knot) (en : env) (src : str) (name : str) (tg : htarget) (c : call)
    (content : option tpl) (text : option str) (prop : option (str * json)) : M (option json) :=
  let s := match content with Some _ => SBlock name | None => SHelper name end in
  let* st := get in
  if stack_max <=? count_site s (r_stack st) then fail (EHelperCycle name)
  else
    upd (fun st => up_stack (s :: r_stack st) st) ;;
    let* a := arguments K en src 0 (c_args c) in
    let* h := hash K en src c in
    let ctx := mkHctx c src name (fst a) (fst h) text prop (snd a ++ snd h) in
    let* st := get in
    let* v := match tg with
              | ByName n =>
                  match assoc n (r_local st) with
                  | Some f => run K en (f ctx content)
                  | None =>
                      match assoc n (rg_helpers (en_reg en)) with
                      | Some f => run K en (f ctx content)
                      | None => ret None
                      end
                  end
              | ByRef f => run K en (f ctx content)
              end in
    upd pop_stack ;; ret v.

(** src/render/mod.rs:697-700 [has_helper] *)
Definition has_helper (en : env) (name : str) (st : rst) : bool :=
  match assoc name (r_local st) with
  | Some _ => true
  | None => match assoc name (rg_helpers (en_reg en)) with Some _ => true | None => false end
  end.

(** src/render/mod.rs:703-718 [resolve] *)
Definition resolve (en : env) (src : str) (p : path) : M (option json) :=
  let* v := mlookup en src p in
  match v with
  | Some v => ret (Some v)
  | None =>
      if rg_strict (en_reg en) then let* s := need (path_str src p) in fail (EVariableNotFound s (en_name en))
      else ret None
  end.

Definition helper_missing_name : str := lit "helperMissing".
Definition block_helper_missing_name : str := lit "blockHelperMissing".
Definition link_name : str := lit "link".
Definition partial_block : str := lit "@partial-block".

(** src/render/mod.rs:721-769 [call] *)
Definition call_ (K : knot) (en : env) (src : str) (c : call) : M (option json) :=
  match c_target c with
  | TPath p =>
      if pa_explicit p then mlookup en src p
      else if path_is_simple p then
        let* name := need (path_str src p) in
        let* st := get in
        if has_helper en name st then invoke K en src name (ByName name) c None None None
        else
          let* v := mlookup en src p in
          match v with
          | Some v => ret (Some v)
          | None =>
              match rg_missing (en_reg en) with
              | Some h => invoke K en src helper_missing_name (ByRef h) c None None None
              | None =>
                  if rg_strict (en_reg en) then fail (EVariableNotFound name (en_name en)) else ret None
              end
          end
      else resolve en src p
  | TSub sub => k_call K en src sub
  end.

(** src/render/mod.rs:780-801 [get_partial_name] *)
Definition get_partial_name (K : knot) (en : env) (src : str) (c : call) : M str :=
  match c_target c with
  | TPath p =>
      let* s := need (path_str src p) in
      if streq s partial_block then ret partial_block
      else if path_is_simple p then ret s
      else fail (EPartialIdentifier s)
  | TSub sub =>
      let* v := k_stmt K en src sub in
      ret (stringify (pl_fstr (en_plat en)) (match v with Some v => v | None => JNull end))
  end.

(** src/render/mod.rs:803-854 [render_partial] *)
Definition render_partial (K : knot) (en : env) (src : str) (c : call) (pb : option tpl) : M unit :=
  let* name := get_partial_name K en src c in
  let* st := get in
  if existsb (site_eq (SPartial name)) (r_stack st) then fail (EPartialCycle name)
  else
    upd (fun st => up_stack (SPartial name :: r_stack st) st) ;;
    (match pb with
     | Some t => upd (fun st => up_partials (assoc_set partial_block t (r_partials st)) st)
     | None => ret tt
     end) ;;
    let* st := get in
    let* t := (match assoc name (r_partials st) with
               | Some t => ret t
               | None =>
                   match assoc name (rg_templates (en_reg en)) with
                   | Some te => upd (fun st => up_names (te_file te :: r_names st) st) ;; ret (te_tpl te)
                   | None => fail (EPartialNotFound name)
                   end
               end) in
    let* h := hash K en src c in
    let* sc := (match c_args c with
                | [] => ret (mkScope (Some (JObj (fst h))) [])
                | _ =>
                    let* a := arguments K en src 0 (c_args c) in
                    match fst a with
                    | x :: _ => ret (mkScope (Some x) (fst h))
                    | [] => ret (mkScope (Some (JObj (fst h))) [])
                    end
                end) in
    upd (fun st => up_scopes (sc :: r_scopes st) st) ;;
    let* st := get in
    iter_nodes (tp_src t) (fun n tr _ _ => k_node K en (tp_src t) n tr) None (r_hint st)
               (children (tp_node t)) ;;
    upd (fun st => up_scopes (tl (r_scopes st)) st) ;;
    upd (fun st => up_names (tl (r_names st)) st) ;;
    upd pop_stack.

(** src/render/mod.rs:771-778 [statement] *)
Definition stmt_ (K : knot) (en : env) (src : str) (c : call) : M (option json) :=
  if c_partial c then render_partial K en src c None ;; ret None
  else call_ K en src c.

(** src/render/mod.rs:856-915 [block_helper_missing] *)
Definition block_missing (K : knot) (en : env) (t : tpl) (c : call) (text : option str) (raw : bool) : M unit :=
  let src := tp_src t in
  if raw then
    match text with
    | Some s => write_str en s false ;; ret tt
    | None => ret tt
    end
  else
    match c_target c with
    | TPath p =>
        let* v := mlookup en src p in
        match v with
        | Some v =>
            match rg_block_missing (en_reg en) with
            | Some h =>
                let* name := need (path_str src p) in
                invoke K en src block_helper_missing_name (ByRef h) c (Some t) None (Some (name, v)) ;; ret tt
            | None => template_ K en t
            end
        | None =>
            match rg_missing (en_reg en) with
            | Some h => invoke K en src helper_missing_name (ByRef h) c None None None ;; ret tt
            | None =>
                if rg_strict (en_reg en) then let* s := need (path_str src p) in fail (EHelperNotFound s)
                else ret tt
            end
        end
    | TSub _ => ret tt
    end.

(** src/render/mod.rs:931-964, the text of a raw block *)
Definition raw_text (src : str) (b : block) : M str :=
  let* s := (match b_nodes b with n :: _ => need (node_str src n) | [] => ret [] end) in
  let* hint := need (block_trim_close src b) in
  let* h := need (node_trim src (NBlock b)) in
  let s := if th_after h then trim_start s else s in
  let s := if th_before hint then trim_end s else s in
  upd (up_end (Some hint)) ;; ret s.

(** src/render/mod.rs:917-990 [block] *)
Definition block_ (K : knot) (en : env) (src : str) (b : block) : M unit :=
  let t := mkTpl src (NBlock b) in
  let c := b_call b in
  if c_partial c then render_partial K en src c (Some t)
  else
    match c_target c with
    | TPath p =>
        if path_is_simple p then
          let* text := (if b_raw b then let* s := raw_text src b in ret (Some s) else ret None) in
          let* name := need (path_str src p) in
          let* st := get in
          if has_helper en name st then
            invoke K en src name (ByName name) c (Some t) text None ;; ret tt
          else block_missing K en t c text (b_raw b)
        else let* s := need (path_str src p) in fail (EBlockIdentifier s)
    | TSub _ => fail EBlockTargetSubExpr
    end.

(** src/render/mod.rs:993-1036 [link] *)
Definition link_call (src : str) (l : link) (href label title : str) : call :=
  mkCall false false (0, 0) None (TPath (path_new (0, 0) (0, 0)))
    [VJson (JStr href) (lk_href_span l) (lk_line l);
     VJson (JStr label) (lk_label_span l) (lk_line l);
     VJson (JStr title) (lk_title_span l) (lk_line l)] [] (0, 0).
Definition link_ (K : knot) (en : env) (src : str) (h : helper) (l : link) : M unit :=
  let* href := need (link_href src l) in
  let* label := need (link_label src l) in
  let* title := need (link_title src l) in
  invoke K en src link_name (ByRef h) (link_call src l href label title) None None None ;; ret tt.

(** src/render/mod.rs:1038-1090 [render_node] *)
Definition node_body (K : knot) (en : env) (src : str) (n : node) : M unit :=
  match n with
  | NText t => let* s := need (text_str src t) in write_str en s false ;; ret tt
  | NRawStmt t =>
      let* s := need (text_block_str src t) in
      let* s := need (slice s 1 (blen s)) in
      write_str en s false ;; ret tt
  | NLink l =>
      let* e := need (link_is_escaped src l) in
      if e then let* s := need (link_after_escape src l) in write_str en s false ;; ret tt
      else
        match pl_links (en_plat en), rg_link (en_reg en) with
        | true, Some h => link_ K en src h l
        | _, _ => let* s := need (link_str src l) in write_str en s false ;; ret tt
        end
  | NRawComment _ | NComment _ | NDoc _ => ret tt
  | NStmt c =>
      let* v := k_stmt K en src c in
      match v with
      | Some v =>
          let* e := need (call_is_escaped src c) in
          write_str en (stringify (pl_fstr (en_plat en)) v) e ;; ret tt
      | None => ret tt
      end
  | NBlock b => block_ K en src b
  end.
Definition node_ (K : knot) (en : env) (src : str) (n : node) (tr : trim_state) : M unit :=
  upd (up_trim tr) ;;
  let* h := need (node_trim src n) in
  upd (up_hint (Some h)) ;;
  upd (fun st => match r_end st with
                 | Some e => up_end None (if th_after e then up_trim (mkTrim true (ts_end (r_trim st))) st else st)
                 | None => st
                 end) ;;
  node_body K en src n.

(** Recursion is cut by fuel; [RenderFacts] proves that enough fuel exists and that more fuel never
    changes a result. *)
Fixpoint tie (fuel : nat) : knot :=
  match fuel with
  | 0 => mkKnot (fun _ _ _ _ _ => RFuel) (fun _ _ _ _ => RFuel) (fun _ _ _ _ => RFuel)
  | S fuel => let K := tie fuel in mkKnot (node_ K) (call_ K) (stmt_ K)
  end.

(** src/template.rs:78-94 [Template::render] *)
Definition render_template_go (fuel : nat) (en : env) (t : tpl) (stack : list site) : rres unit :=
  render_ (tie fuel) en t (r_new stack).
