(** * Ast: model of /repo/src/parser/ast.rs.  AST nodes do not store the template source; the functions
    that slice it take it as the argument [src].  No proofs in this file. *)
From Coq Require Import String.
From Verif Require Import Str Json.
Open Scope nat_scope. Open Scope list_scope.

(** [Range<usize>] *)
Definition span := (nat * nat)%type.

(** src/parser/ast.rs:210-215 [Text] *)
Record text := mkText { tx_span : span; tx_line : span }.
(** src/parser/ast.rs:266-271 [TextBlock] *)
Record text_block := mkTextBlock { tb_text : text; tb_open : span; tb_close : span }.

(** src/parser/ast.rs:336-343 [RawIdType], 347-362 [ComponentType] *)
Inductive raw_id := RawSingle | RawDouble | RawArray.
Inductive comp_kind :=
| CParent | CThisKeyword | CThisDotSlash | CIdentifier | CLocal | CRaw (r : raw_id) | CDelimiter.
(** src/parser/ast.rs:366-371 [Component] *)
Record component := mkComp { cm_kind : comp_kind; cm_span : span; cm_value : option str }.

(** src/parser/ast.rs:482-491 [Path]; [parents] is a u8 *)
Record path := mkPath {
  pa_comps : list component; pa_parents : N; pa_explicit : bool; pa_root : bool;
  pa_span : span; pa_line : span; pa_absolute : bool }.

(** src/parser/ast.rs:635-651 [ParameterValue], 714-719 [CallTarget], 794-805 [Call];
    the HashMap of hash parameters is an association list in insertion order. *)
Inductive call :=
| mkCall (partial conditional : bool) (open : span) (close : option span) (tgt : target)
         (args : list param) (params : list (str * param)) (line : span)
with target :=
| TPath (p : path)
| TSub (c : call)
with param :=
| VPath (p : path)
| VJson (v : json) (sp : span) (line : span)
| VSub (c : call).

Definition c_partial (c : call) := let 'mkCall p _ _ _ _ _ _ _ := c in p.
Definition c_conditional (c : call) := let 'mkCall _ k _ _ _ _ _ _ := c in k.
Definition c_open (c : call) := let 'mkCall _ _ o _ _ _ _ _ := c in o.
Definition c_close (c : call) := let 'mkCall _ _ _ cl _ _ _ _ := c in cl.
Definition c_target (c : call) := let 'mkCall _ _ _ _ t _ _ _ := c in t.
Definition c_args (c : call) := let 'mkCall _ _ _ _ _ a _ _ := c in a.
Definition c_params (c : call) := let 'mkCall _ _ _ _ _ _ h _ := c in h.
Definition c_line (c : call) := let 'mkCall _ _ _ _ _ _ _ l := c in l.

(** src/parser/ast.rs:1283-1296 [Link] *)
Record link := mkLink {
  lk_open : span; lk_close : option span; lk_line : span;
  lk_href_span : span; lk_label_span : span; lk_title_span : span;
  lk_href : option str; lk_label : option str; lk_title : option str }.

(** src/parser/ast.rs:79-101 [Node], 1031-1040 [Block] *)
Inductive node :=
| NDoc (nodes : list node)
| NText (t : text)
| NStmt (c : call)
| NBlock (b : block)
| NRawStmt (t : text_block)
| NRawComment (t : text_block)
| NComment (t : text_block)
| NLink (l : link)
with block :=
| mkBlock (nodes : list node) (raw : bool) (open : span) (close : option span) (c : call)
          (conds : list node) (line : span).

Definition b_nodes (b : block) := let 'mkBlock n _ _ _ _ _ _ := b in n.
Definition b_raw (b : block) := let 'mkBlock _ r _ _ _ _ _ := b in r.
Definition b_open (b : block) := let 'mkBlock _ _ o _ _ _ _ := b in o.
Definition b_close (b : block) := let 'mkBlock _ _ _ c _ _ _ := b in c.
Definition b_call (b : block) := let 'mkBlock _ _ _ _ c _ _ := b in c.
Definition b_conds (b : block) := let 'mkBlock _ _ _ _ _ k _ := b in k.
Definition b_line (b : block) := let 'mkBlock _ _ _ _ _ _ l := b in l.

(** ** Slices: [None] is a panic of the Rust slice expression *)
Definition sl (src : str) (s : span) : option str := slice src (fst s) (snd s).

(** src/parser/ast.rs:237-245 [Text::as_str] *)
Definition text_str (src : str) (t : text) := sl src (tx_span t).
(** src/parser/ast.rs:290-298 [TextBlock::as_str] *)
Definition text_block_str (src : str) (t : text_block) := slice src (fst (tb_open t)) (snd (tb_close t)).
(** src/parser/ast.rs:454-462 [Component::as_str], 446-451 [Component::as_value] *)
Definition comp_str (src : str) (c : component) := sl src (cm_span c).
Definition comp_value (src : str) (c : component) : option str :=
  match cm_value c with Some v => Some v | None => comp_str src c end.
(** src/parser/ast.rs:594-602 [Path::as_str] *)
Definition path_str (src : str) (p : path) := sl src (pa_span p).
(** src/parser/ast.rs:911-917 [Call::as_str] *)
Definition call_str (src : str) (c : call) : option str :=
  match c_close c with
  | Some cl => slice src (fst (c_open c)) (snd cl)
  | None => sl src (c_open c)
  end.
(** src/parser/ast.rs:742-748 [CallTarget::as_str] *)
Definition target_str (src : str) (t : target) : option str :=
  match t with TPath p => path_str src p | TSub c => call_str src c end.
(** src/parser/ast.rs:734-739 [CallTarget::span] *)
Definition target_span (t : target) : span :=
  match t with TPath p => pa_span p | TSub c => c_open c end.
(** src/parser/ast.rs:666-675 [ParameterValue::as_str] *)
Definition param_str (src : str) (p : param) : option str :=
  match p with VPath p => path_str src p | VJson _ s _ => sl src s | VSub c => call_str src c end.
(** src/parser/ast.rs:935-944 [Call::open], [Call::close] *)
Definition call_open_str (src : str) (c : call) := sl src (c_open c).
Definition call_close_str (src : str) (c : call) : option str :=
  match c_close c with Some cl => sl src cl | None => Some [] end.
(** src/parser/ast.rs:1195-1199 [Block::as_str], 1217-1227 [Block::open], [Block::close] *)
Definition block_str (src : str) (b : block) : option str :=
  slice src (fst (b_open b)) (match b_close b with Some cl => snd cl | None => blen src end).
Definition block_open_str (src : str) (b : block) := sl src (b_open b).
Definition block_close_str (src : str) (b : block) : option str :=
  match b_close b with Some cl => sl src cl | None => Some [] end.
(** src/parser/ast.rs:1431-1435 [Link::as_str], 1425-1428 [after_escape]; the close of a parsed link is
    always set, otherwise the end is [open.len()] *)
Definition link_close_end (l : link) : nat :=
  match lk_close l with Some cl => snd cl | None => snd (lk_open l) - fst (lk_open l) end.
Definition link_str (src : str) (l : link) := slice src (fst (lk_open l)) (link_close_end l).
Definition link_after_escape (src : str) (l : link) := slice src (fst (lk_open l) + 1) (link_close_end l).
(** src/parser/ast.rs:1322-1353 [Link::href], [label], [title] *)
Definition link_href (src : str) (l : link) : option str :=
  match lk_href l with Some h => Some h | None => sl src (lk_href_span l) end.
Definition link_label (src : str) (l : link) : option str :=
  match lk_label l with Some h => Some h | None => sl src (lk_label_span l) end.
Definition link_title (src : str) (l : link) : option str :=
  match lk_title l with Some h => Some h | None => sl src (lk_title_span l) end.
(** src/parser/ast.rs:1420-1422 [Link::is_escaped] *)
Definition link_is_escaped (src : str) (l : link) : option bool :=
  match sl src (lk_open l) with Some o => Some (starts_with [92%N] o) | None => None end.

(** src/parser/ast.rs:150-162 [Node::as_str] *)
Definition node_str (src : str) (n : node) : option str :=
  match n with
  | NDoc _ => Some src
  | NText t => text_str src t
  | NStmt c => call_str src c
  | NBlock b => block_str src b
  | NLink l => link_str src l
  | NRawStmt t | NRawComment t | NComment t => text_block_str src t
  end.
(** src/parser/ast.rs:178-191, 1011-1015, 1260-1267 [Display for Node], [Document], [Block]; the other nodes show
    their [as_str] (247-251, 316-320, 963-967, 1482-1486) *)
Fixpoint node_display (src : str) (n : node) : option str :=
  match n with
  | NBlock b =>
      (fix cat (l : list node) : option str :=
         match l with
         | [] => Some []
         | x :: r => match node_display src x, cat r with Some a, Some b => Some (a ++ b) | _, _ => None end
         end) (b_nodes b)
  | _ => node_str src n
  end.

(** ** Component and path predicates *)
(** src/parser/ast.rs:394-396 [Component::is_root] *)
Definition comp_is_root (src : str) (c : component) : option bool :=
  match comp_str src c with Some s => Some (streq s (lit "@root")) | None => None end.
(** src/parser/ast.rs:410-433 [Component::is_local] .. [is_explicit_dot_slash] *)
Definition comp_is_local (c : component) : bool := match cm_kind c with CLocal => true | _ => false end.
Definition comp_is_identifier (c : component) : bool := match cm_kind c with CIdentifier => true | _ => false end.
Definition comp_is_dot_slash (c : component) : bool := match cm_kind c with CThisDotSlash => true | _ => false end.
Definition comp_is_explicit (c : component) : bool :=
  match cm_kind c with CThisKeyword | CThisDotSlash => true | _ => false end.
(** src/parser/ast.rs:576-591 [Path::is_empty], [is_local], [is_simple] *)
Definition path_is_empty (p : path) : bool := match pa_comps p with [] => true | _ => false end.
Definition path_is_local (p : path) : bool :=
  match pa_comps p with c :: _ => comp_is_local c | [] => false end.
Definition path_is_simple (p : path) : bool :=
  match pa_comps p with [c] => comp_is_identifier c | _ => false end.
(** src/parser/ast.rs:723-728 [CallTarget::is_empty], 831-833 [Call::is_empty] *)
Fixpoint call_is_empty (c : call) : bool :=
  match c with
  | mkCall _ _ _ _ (TPath p) _ _ _ => path_is_empty p
  | mkCall _ _ _ _ (TSub c') _ _ _ => call_is_empty c'
  end.

(** ** Constructors and setters *)
(** src/parser/ast.rs:495-510 [Path::new] *)
Definition path_new (sp line : span) : path := mkPath [] 0%N false false sp line false.
Definition path_set_end (e : nat) (p : path) : path :=
  mkPath (pa_comps p) (pa_parents p) (pa_explicit p) (pa_root p) (fst (pa_span p), e) (pa_line p) (pa_absolute p).
Definition path_add (c : component) (p : path) : path :=
  mkPath (pa_comps p ++ [c]) (pa_parents p) (pa_explicit p) (pa_root p) (pa_span p) (pa_line p) (pa_absolute p).
Definition path_set_parents (n : N) (p : path) : path :=
  mkPath (pa_comps p) n (pa_explicit p) (pa_root p) (pa_span p) (pa_line p) (pa_absolute p).
Definition path_set_root (b : bool) (p : path) : path :=
  mkPath (pa_comps p) (pa_parents p) (pa_explicit p) b (pa_span p) (pa_line p) (pa_absolute p).
Definition path_set_explicit (b : bool) (p : path) : path :=
  mkPath (pa_comps p) (pa_parents p) b (pa_root p) (pa_span p) (pa_line p) (pa_absolute p).
Definition path_set_absolute (b : bool) (p : path) : path :=
  mkPath (pa_comps p) (pa_parents p) (pa_explicit p) (pa_root p) (pa_span p) (pa_line p) b.

(** src/parser/ast.rs:812-828 [Call::new] *)
Definition call_new (open line : span) : call :=
  mkCall false false open None (TPath (path_new (0, 0) (0, 0))) [] [] line.
Definition call_set_target (t : target) (c : call) : call :=
  let 'mkCall p k o cl _ a h l := c in mkCall p k o cl t a h l.
Definition call_add_argument (v : param) (c : call) : call :=
  let 'mkCall p k o cl t a h l := c in mkCall p k o cl t (a ++ [v]) h l.
(** src/parser/ast.rs:861-867 [Call::add_parameter] (HashMap::insert) *)
Definition call_add_parameter (key : str) (v : param) (c : call) : call :=
  let 'mkCall p k o cl t a h l := c in mkCall p k o cl t a (assoc_set key v h) l.
Definition call_set_partial (b : bool) (c : call) : call :=
  let 'mkCall _ k o cl t a h l := c in mkCall b k o cl t a h l.
Definition call_set_conditional (b : bool) (c : call) : call :=
  let 'mkCall p _ o cl t a h l := c in mkCall p b o cl t a h l.
(** src/parser/ast.rs:958-960 [Call::exit] *)
Definition call_exit (close : span) (c : call) : call :=
  let 'mkCall p k o _ t a h l := c in mkCall p k o (Some close) t a h l.
(** src/parser/ast.rs:35-37 [Lines::lines_end] *)
Definition call_lines_end (line : nat) (c : call) : call :=
  let 'mkCall p k o cl t a h l := c in mkCall p k o cl t a h (fst l, line + 1).
Definition call_is_closed (c : call) : bool := match c_close c with Some _ => true | None => false end.
(** src/parser/ast.rs:65-71 [Element::span] *)
Definition call_span (c : call) : span :=
  match c_close c with Some cl => (fst (c_open c), snd cl) | None => c_open c end.
(** src/parser/ast.rs:841-843 [Call::has_target] *)
Definition call_has_target (src : str) (c : call) : option bool :=
  match target_str src (c_target c) with
  | Some [] => Some false
  | Some _ => Some true
  | None => None
  end.

(** [Call::default()] (derive Default, empty target). *)
Definition call_default : call := call_new (0, 0) (0, 0).
(** src/parser/ast.rs:1044-1060 [Block::new] *)
Definition block_new (open : span) (raw : bool) (line : span) : block :=
  mkBlock [] raw open None call_default [] line.
Definition block_set_call (c : call) (b : block) : block :=
  let 'mkBlock n r o cl _ k l := b in mkBlock n r o cl c k l.
Definition block_set_close (cl : span) (b : block) : block :=
  let 'mkBlock n r o _ c k l := b in mkBlock n r o (Some cl) c k l.
Definition block_push_raw (x : node) (b : block) : block :=
  let 'mkBlock n r o cl c k l := b in mkBlock (n ++ [x]) r o cl c k l.
Definition block_lines_end (line : nat) (b : block) : block :=
  let 'mkBlock n r o cl c k l := b in mkBlock n r o cl c k (fst l, line + 1).

(** Apply [f] to the last conditional if it is a block ([conditionals.last_mut()]). *)
Fixpoint map_last_block (f : block -> block) (l : list node) : list node :=
  match l with
  | [] => []
  | [NBlock b] => [NBlock (f b)]
  | x :: l' => x :: map_last_block f l'
  end.
Definition block_map_last_cond (f : block -> block) (b : block) : block :=
  let 'mkBlock n r o cl c k l := b in mkBlock n r o cl c (map_last_block f k) l.

(** src/parser/ast.rs:1108-1120 [Block::push] *)
Definition block_push (x : node) (b : block) : block :=
  match b_conds b with
  | [] => block_push_raw x b
  | _ => block_map_last_cond (block_push_raw x) b
  end.
(** src/parser/ast.rs:1137-1150 [Block::close_condition] *)
Definition block_close_condition (sp : span) (b : block) : block :=
  if 0 <? fst sp then block_map_last_cond (block_set_close (fst sp - 1, fst sp)) b else b.
(** src/parser/ast.rs:1096-1099 [Block::add_condition] *)
Definition block_add_condition (cond : block) (b : block) : block :=
  let b' := block_close_condition (c_open (b_call cond)) b in
  let 'mkBlock n r o cl c k l := b' in mkBlock n r o cl c (k ++ [NBlock cond]) l.
(** src/parser/ast.rs:1241-1257 [Block::exit] *)
Definition block_exit (sp : span) (b : block) : block :=
  block_set_close sp (block_map_last_cond (block_set_close sp) b).

(** src/parser/ast.rs:1076-1088 [Block::name]; outer [None] = slice panic *)
Definition block_name (src : str) (b : block) : option (option str) :=
  match c_target (b_call b) with
  | TPath p =>
      if path_is_simple p then
        match pa_comps p with
        | c :: _ => match comp_str src c with Some s => Some (Some s) | None => None end
        | [] => None
        end
      else Some None
  | TSub _ => Some None
  end.

(** src/parser/ast.rs:1300-1318 [Link::new] *)
Definition link_new (open line : span) : link :=
  let e := snd open in mkLink open None line (e, e) (e, e) (e, e) None None None.
Definition link_set_close (cl : span) (l : link) : link :=
  mkLink (lk_open l) (Some cl) (lk_line l) (lk_href_span l) (lk_label_span l) (lk_title_span l) (lk_href l) (lk_label l) (lk_title l).
Definition link_set_line_end (e : nat) (l : link) : link :=
  mkLink (lk_open l) (lk_close l) (fst (lk_line l), e + 1) (lk_href_span l) (lk_label_span l) (lk_title_span l) (lk_href l) (lk_label l) (lk_title l).
Definition link_set_href_span (s : span) (l : link) : link :=
  mkLink (lk_open l) (lk_close l) (lk_line l) s (lk_label_span l) (lk_title_span l) (lk_href l) (lk_label l) (lk_title l).
Definition link_set_label_span (s : span) (l : link) : link :=
  mkLink (lk_open l) (lk_close l) (lk_line l) (lk_href_span l) s (lk_title_span l) (lk_href l) (lk_label l) (lk_title l).
Definition link_set_title_span (s : span) (l : link) : link :=
  mkLink (lk_open l) (lk_close l) (lk_line l) (lk_href_span l) (lk_label_span l) s (lk_href l) (lk_label l) (lk_title l).
Definition link_set_href (v : str) (l : link) : link :=
  mkLink (lk_open l) (lk_close l) (lk_line l) (lk_href_span l) (lk_label_span l) (lk_title_span l) (Some v) (lk_label l) (lk_title l).
Definition link_set_label (v : str) (l : link) : link :=
  mkLink (lk_open l) (lk_close l) (lk_line l) (lk_href_span l) (lk_label_span l) (lk_title_span l) (lk_href l) (Some v) (lk_title l).
Definition link_set_title (v : str) (l : link) : link :=
  mkLink (lk_open l) (lk_close l) (lk_line l) (lk_href_span l) (lk_label_span l) (lk_title_span l) (lk_href l) (lk_label l) (Some v).

(** ** Escaping flag and trim hints ([None] = slice panic) *)
(** src/parser/ast.rs:897-900 [Call::is_escaped] *)
Definition call_is_escaped (src : str) (c : call) : option bool :=
  match call_open_str src c with Some o => Some (negb (starts_with (lit "{{{") o)) | None => None end.
(** src/parser/ast.rs:902-908 [Call::trim_before], [Call::trim_after] *)
Definition call_trim_before (src : str) (c : call) : option bool :=
  match call_open_str src c with Some o => Some (ends_with [126%N] o) | None => None end.
Definition call_trim_after (src : str) (c : call) : option bool :=
  match call_close_str src c with Some o => Some (starts_with [126%N] o) | None => None end.

(** [s.len() > i && "~" == &s[i..i+1]] *)
Definition tilde_at (s : str) (i : nat) : option bool :=
  if i <? blen s then
    match slice s i (i + 1) with Some x => Some (streq x [126%N]) | None => None end
  else Some false.
(** src/parser/ast.rs:1152-1159 [Block::trim_before], 1161-1163 [Block::trim_after] *)
Definition block_trim_before (src : str) (b : block) : option bool :=
  match block_open_str src b with
  | Some o => tilde_at o (if b_raw b then 4 else 2)
  | None => None
  end.
Definition block_trim_after (src : str) (b : block) : option bool := call_trim_after src (b_call b).
(** src/parser/ast.rs:1165-1172 [Block::trim_before_close] *)
Definition block_trim_before_close (src : str) (b : block) : option bool :=
  match block_close_str src b with
  | Some o => tilde_at o (if b_raw b then 4 else 2)
  | None => None
  end.
(** src/parser/ast.rs:1174-1192 [Block::trim_after_close] *)
Definition block_trim_after_close (src : str) (b : block) : option bool :=
  match block_close_str src b with
  | Some o =>
      let k := if b_raw b then 5 else 3 in
      if k <? blen o then
        match slice o (blen o - k) (blen o - k + 1) with
        | Some x => Some (streq x [126%N])
        | None => None
        end
      else Some false
  | None => None
  end.

(** src/trim.rs:36-43 [TrimHint] and 8-15 [TrimState] *)
Record trim_hint := mkHint { th_before : bool; th_after : bool }.
Record trim_state := mkTrim { ts_start : bool; ts_end : bool }.

Definition hint2 (a b : option bool) : option trim_hint :=
  match a, b with Some x, Some y => Some (mkHint x y) | _, _ => None end.
(** src/parser/ast.rs:1130-1135 [Block::trim_close] *)
Definition block_trim_close (src : str) (b : block) : option trim_hint :=
  hint2 (block_trim_before_close src b) (block_trim_after_close src b).
(** src/parser/ast.rs:111-142 [Node::trim] *)
Definition node_trim (src : str) (n : node) : option trim_hint :=
  match n with
  | NStmt c => hint2 (call_trim_before src c) (call_trim_after src c)
  | NBlock b => hint2 (block_trim_before src b) (block_trim_after src b)
  | _ => Some (mkHint false false)
  end.
