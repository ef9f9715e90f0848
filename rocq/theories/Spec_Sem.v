(** * Spec_Sem: what rendering a template means, defined on the syntax trees of Spec_Source.
    A big-step semantics that mentions neither the parser, nor spans, nor the renderer's state: values of paths,
    arguments and calls, and the text each item of a document stands for.  No proofs in this file. *)
From Coq Require Import String.
From Coq Require Export Permutation.
From Verif Require Import Str Lexer Json Ast Parser Render Helpers Registry Spec_Lexer Spec_Values Spec_Helpers Spec_Blocks Spec_Calls Spec_Source.
Open Scope nat_scope. Open Scope list_scope.

(** ** The text of a value *)
(** [s] is the usual decimal notation of [n] *)
Definition decimal (n : N) (s : str) : Prop :=
  s <> [] /\ Forall digit s /\ decimal_value s = n /\ (forall r, s = 48%N :: r -> r = []).
Inductive shown (fstr : spec_float -> str) : json -> str -> Prop :=
| shown_string s : shown fstr (JStr s) s
| shown_null : shown fstr JNull (lit "null")
| shown_true : shown fstr (JBool true) (lit "true")
| shown_false : shown fstr (JBool false) (lit "false")
| shown_natural n s : decimal n s -> shown fstr (JNum (PosInt n)) s
| shown_negative p s : decimal (Npos p) s -> shown fstr (JNum (NegInt (Zneg p))) ([45%N] ++ s)
| shown_whole n s : decimal n s -> shown fstr (JNum (NegInt (Z.of_N n))) s
| shown_float f : shown fstr (JNum (Flt f)) (fstr f)
| shown_object m : shown fstr (JObj m) (lit "Object")
| shown_array l s : decimal (N.of_nat (length l)) s -> shown fstr (JArr l) (lit "Array[" ++ s ++ lit "]").

(** ** Whitespace control *)
Definition blank (s : str) : Prop := forall c, In c s -> In c white_space.
(** [y] is [x] without the whitespace at its start (if [s]) and at its end (if [e]) *)
Definition stripped (s e : bool) (x y : str) : Prop :=
  exists a b, x = a ++ y ++ b /\ blank a /\ blank b
    /\ (if s then forall c r, y = c :: r -> ~ In c white_space else a = [])
    /\ (if e then forall c r, y = r ++ [c] -> ~ In c white_space else b = []).
(** the [~] of the tag an item starts with, and of the tag it ends with *)
Definition before (i : item) : bool :=
  match i with ICall _ m _ _ | IDyn _ m _ _ _ _ | IRaw _ m _ _ | IBlock _ _ m _ _ _ => tl_before m | _ => false end.
Definition after (i : item) : bool :=
  match i with ICall _ m _ _ | IDyn _ m _ _ _ _ => tl_after m | IRaw _ _ _ m' | IBlock _ _ _ _ _ m' => tl_after m' | _ => false end.
(** is there a [~] right after the items that precede [l], [e] being the one after the last item *)
Definition next_before (e : bool) (l : list item) : bool := match l with [] => e | j :: _ => before j end.

(** ** The world a template is rendered in: platform, registry, data, and the sources of the partials *)
Record world := mkWorld { w_plat : plat; w_reg : registry; w_data : json; w_docs : list (str * list item) }.

(** ** Values *)
Definition segs (t : tail) : list str := map (fun x => seg_value (snd x)) t.
(** the value of a path, seen from the scopes [scs] (innermost first) *)
Inductive path_value (data : json) (scs : list scope) : head -> tail -> json -> Prop :=
| pv_name n t v : visible (n :: segs t) data scs v -> path_value data scs (HdName n) t v
| pv_this b : this_is data scs b -> path_value data scs HdThis [] b
| pv_this_in t b v : this_is data scs b -> follow b (segs t) v -> path_value data scs HdThis t v
| pv_dot s t b v : this_is data scs b -> follow b (seg_value s :: segs t) v -> path_value data scs (HdDot s) t v
| pv_up k n t v : at_level (n :: segs t) data scs (S k) v -> path_value data scs (HdUp (S k) n) t v
| pv_up_none n t v : visible (n :: segs t) data scs v -> path_value data scs (HdUp 0 n) t v
| pv_root t v : follow data (segs t) v -> path_value data scs (HdLocal (lit "root")) t v
| pv_local n t s ss v : scs = s :: ss -> n <> lit "root" -> in_locals (([64%N] ++ n) :: segs t) s v -> path_value data scs (HdLocal n) t v.
Definition no_value (data : json) (scs : list scope) (h : head) (t : tail) : Prop := forall v, ~ path_value data scs h t v.

(** [{{name}}] and [{{../name}}] may name a helper *)
Definition names (h : head) (t : tail) (n : str) : Prop :=
  t = [] /\ n = path_text h t /\ match h with HdName _ | HdUp _ _ | HdAbs _ => True | _ => False end.
Definition not_helper (w : world) (h : head) (t : tail) : Prop :=
  forall n, names h t n -> assoc n (rg_helpers (w_reg w)) = None.
(** the helper a statement calls, with the name it is called by: the one it names, or the handler for missing variables *)
Inductive called (w : world) (scs : list scope) (h : head) (t : tail) : str -> helper -> Prop :=
| called_helper n f : names h t n -> assoc n (rg_helpers (w_reg w)) = Some f -> called w scs h t n f
| called_missing n f : names h t n -> assoc n (rg_helpers (w_reg w)) = None -> no_value (w_data w) scs h t ->
    rg_missing (w_reg w) = Some f -> called w scs h t (lit "helperMissing") f.
(** a variable that may be missing: [this.x] and [./x] always, others unless strict, names only without a handler *)
Definition may_miss (w : world) (h : head) (t : tail) : Prop :=
  h = HdThis \/ (exists s, h = HdDot s)
  \/ (rg_strict (w_reg w) = false /\ ((exists n, names h t n) -> rg_missing (w_reg w) = None)).
(** the map with these pairs (a JSON object lists its keys in order) *)
Definition map_of (m pairs : list (str * json)) : Prop := key_sorted m /\ Permutation m pairs.
(** what a helper may ask the renderer for: the root data, the escape function, the scopes (for [evaluate]) *)
Definition sees (w : world) (scs : list scope) (en : env) (st : rst) : Prop :=
  en_plat en = w_plat w /\ en_root en = w_data w /\ rg_escape (en_reg en) = rg_escape (w_reg w) /\ r_scopes st = scs.
(** helper [f] called under the name [n] with these arguments (and this text or property), as a block or not, does here what the program [p] does *)
Definition acts (w : world) (scs : list scope) (f : helper) (n : str) (vs : list json) (ps : list (str * json)) (text : option str) (prop : option (str * json)) (blk : bool) (p : hprog) : Prop :=
  forall ctx t, hc_name ctx = n -> hc_args ctx = vs -> hc_params ctx = ps -> hc_text ctx = text -> hc_property ctx = prop -> (t <> None <-> blk = true) ->
  forall K en st, sees w scs en st -> run K en (f ctx t) st = run K en p st.
(** it gives [v], without any output *)
Definition gives (w : world) (scs : list scope) (f : helper) (n : str) (vs : list json) (ps : list (str * json)) (v : option json) : Prop := acts w scs f n vs ps None None false (HRet v).
(** the program that writes these texts one after the other, escaped or not, and gives [v] *)
Fixpoint writes (ws : list (str * bool)) (v : option json) : hprog :=
  match ws with
  | [] => HRet v
  | (x, esc) :: ws => HWrite x esc (htry (fun _ => writes ws v))
  end.
(** the program that writes [x], escaped if [esc], and gives no value *)
Definition prints (x : str) (esc : bool) : hprog := writes [(x, esc)] None.

(** [arg_value]: what is missing counts as null.  [call_value]: [None] when there is no value.
    [act] lists the calls in progress; a helper may be in progress 32 times. *)
Inductive arg_value (w : world) (scs : list scope) (act : list site) : expr -> json -> Prop :=
| av_str sg l : arg_value w scs act (EStr sg l) (JStr (map (sitem_value (quote_of sg)) l))
| av_arr x : arg_value w scs act (EArr x) (JStr x)
| av_num s n : parse_number (pe_num (pl_penv (w_plat w))) s = Some n -> arg_value w scs act (ENum s) (JNum n)
| av_bool b : arg_value w scs act (EBool b) (JBool b)
| av_null : arg_value w scs act ENull JNull
| av_path h t v : path_value (w_data w) scs h t v -> arg_value w scs act (EPath h t) v
| av_no_path h t : no_value (w_data w) scs h t -> arg_value w scs act (EPath h t) JNull
| av_sub c v : call_value w scs act c (Some v) -> arg_value w scs act (ESub c) v
| av_no_sub c : call_value w scs act c None -> arg_value w scs act (ESub c) JNull
with args_value (w : world) (scs : list scope) (act : list site) : list expr -> list json -> Prop :=
| as_nil : args_value w scs act [] []
| as_cons x xs v vs : arg_value w scs act x v -> args_value w scs act xs vs -> args_value w scs act (x :: xs) (v :: vs)
with hash_value (w : world) (scs : list scope) (act : list site) : list (str * expr) -> list (str * json) -> Prop :=
| hv_nil : hash_value w scs act [] []
| hv_cons k x xs v ps : arg_value w scs act x v -> hash_value w scs act xs ps -> hash_value w scs act ((k, x) :: xs) ((k, v) :: ps)
with call_value (w : world) (scs : list scope) (act : list site) : callx -> option json -> Prop :=
| cv_helper h t xs hs n f vs pairs ps v :
    called w scs h t n f -> count_site (SHelper n) act < 32 ->
    args_value w scs (SHelper n :: act) xs vs -> hash_value w scs (SHelper n :: act) hs pairs -> map_of ps pairs ->
    gives w scs f n vs ps v -> call_value w scs act (Call h t xs hs) v
| cv_variable h t xs hs v :
    not_helper w h t -> path_value (w_data w) scs h t v -> call_value w scs act (Call h t xs hs) (Some v)
| cv_missing h t xs hs :
    not_helper w h t -> no_value (w_data w) scs h t -> may_miss w h t -> call_value w scs act (Call h t xs hs) None.

(** ** Items *)
Definition branch := (option callx * tildes * list item)%type.
Definition br_cond (b : branch) : option callx := fst (fst b).
Definition br_tildes (b : branch) : tildes := snd (fst b).
Definition br_body (b : branch) : list item := snd b.
(** the tag that ends what stands before the branches [bs]: the first of them, or the closing tag *)
Definition next_tag (bs : list branch) (m' : tildes) : tildes := match bs with [] => m' | b :: _ => br_tildes b end.
(** the condition of a branch fails *)
Definition cond_fails (w : world) (scs : list scope) (act : list site) (b : branch) : Prop :=
  forall c, br_cond b = Some c -> exists v, call_value w scs act c v /\ ~ holds v.
(** the branch used when the block itself is not: the first whose condition holds, else the last without condition *)
Inductive else_branch (w : world) (scs : list scope) (act : list site) (bs : list branch) : option (branch * list branch) -> Prop :=
| else_cond pre b post c v : bs = pre ++ b :: post -> Forall (cond_fails w scs act) pre -> br_cond b = Some c ->
    call_value w scs act c v -> holds v -> else_branch w scs act bs (Some (b, post))
| else_plain pre b post : bs = pre ++ b :: post -> Forall (cond_fails w scs act) bs -> br_cond b = None ->
    (forall x, In x post -> br_cond x <> None) -> else_branch w scs act bs (Some (b, post))
| else_none : Forall (cond_fails w scs act) bs -> (forall x, In x bs -> br_cond x <> None) -> else_branch w scs act bs None.
(** the registry has the standard helper of this name *)
Definition standard (w : world) (n : str) : Prop :=
  exists h, builtin (w_plat w) n h /\ assoc n (rg_helpers (w_reg w)) = Some h.
(** the text that is written: nothing for empty text, else the text after escaping *)
Definition written (esc : str -> str) (s : str) : str := match s with [] => [] | _ => esc s end.
Definition iterations_of (v : json) (scs : list scope) : Prop :=
  (exists l, v = JArr l /\ scs = array_scopes l) \/ (exists l, v = JObj l /\ scs = object_scopes l)
  \/ ((forall l, v <> JArr l) /\ (forall l, v <> JObj l) /\ scs = []).

(** a call in progress: of a block, or of anything else *)
Definition site_of (blk : bool) (n : str) : site := if blk then SBlock n else SHelper n.
(** running helper [f] under the name [n] with these arguments comes to running [p] *)
Definition helper_call (w : world) (scs : list scope) (act : list site) (blk : bool) (n : str) (f : helper) (xs : list expr) (hs : list (str * expr))
    (text : option str) (prop : option (str * json)) (p : hprog) : Prop :=
  count_site (site_of blk n) act < 32
  /\ exists vs pairs ps, args_value w scs (site_of blk n :: act) xs vs /\ hash_value w scs (site_of blk n :: act) hs pairs /\ map_of ps pairs
     /\ acts w scs f n vs ps text prop blk p.
(** the output of a helper that writes, when the value it may give is not used: each text is stripped by the [~] of the neighbours on its own *)
Inductive helper_out (w : world) (s e : bool) : hprog -> str -> Prop :=
| ho_value v : helper_out w s e (HRet v) []
| ho_writes x esc y ws v out : stripped s e x y -> helper_out w s e (writes ws v) out ->
    helper_out w s e (writes ((x, esc) :: ws) v) ((if esc then written (rg_escape (w_reg w)) y else y) ++ out).
(** the standard block helper [n] may run, and its argument has the value [v] *)
Definition block_arg (w : world) (scs : list scope) (act : list site) (n : str) (x : expr) (hs : list (str * expr)) (v : json) : Prop :=
  standard w n /\ count_site (SBlock n) act < 32 /\ arg_value w scs (SBlock n :: act) x v
  /\ exists pairs ps, hash_value w scs (SBlock n :: act) hs pairs /\ map_of ps pairs.
(** the name in [{{> name}}], and the items it stands for; [pb]: the content of the partial block *)
Definition partial_name (h : head) (t : tail) (n : str) : Prop := n = path_shown h t /\ (names h t n \/ n = lit "@partial-block").
Definition partial_source (w : world) (pb : option (list item)) (n : str) (d : list item) : Prop :=
  (n = lit "@partial-block" /\ pb = Some d) \/ ((n <> lit "@partial-block" \/ pb = None) /\ assoc n (w_docs w) = Some d).
(** the scope of a partial: its arguments are evaluated in the scopes of the caller *)
Definition partial_args (w : world) (scs : list scope) (act : list site) (n : str) (xs : list expr) (hs : list (str * expr)) (sc : scope) : Prop :=
  exists vs pairs ps, args_value w scs (SPartial n :: act) xs vs /\ hash_value w scs (SPartial n :: act) hs pairs /\ map_of ps pairs /\ sc = partial_scope vs ps.

(** does an item contain a [~] after a tag; does it include partials *)
Fixpoint loud (i : item) : bool :=
  match i with
  | ICall _ m _ _ | IDyn _ m _ _ _ _ => tl_after m
  | IRaw _ m _ m' => tl_after m || tl_after m'
  | IBlock _ _ m body bs m' =>
      tl_after m || tl_after m' || existsb loud body
      || existsb (fun b => tl_after (snd (fst b)) || existsb loud (snd b)) bs
  | _ => false
  end.
Fixpoint includes_partial (i : item) : bool :=
  match i with
  | ICall _ _ p _ | IDyn _ _ p _ _ _ => p
  | IBlock p _ _ body bs _ => p || existsb includes_partial body || existsb (fun b => existsb includes_partial (snd b)) bs
  | _ => false
  end.
Definition quiet_docs (w : world) : Prop := forall n d, assoc n (w_docs w) = Some d -> existsb loud d = false.
Definition quiet_body (w : world) (l : list item) : Prop :=
  existsb loud l = false /\ (existsb includes_partial l = false \/ quiet_docs w).
(** rendering stops with an error, or because a helper panics *)
Inductive stop := Fails (e : rerr) | Panics.
(** the program of a helper that stops at once *)
Definition halt (s : stop) : hprog := match s with Fails e => HFail e | Panics => HPanic end.
(** ** Block helpers of one's own: one step after the other *)
Inductive hstep :=
| Say (x : str) (esc : bool)     (* write a text, escaped or not *)
| Put (x : str)                  (* the same past the renderer, directly to the output *)
| Show                           (* render the content of the block *)
| Otherwise                      (* render the [{{else}}] branch that is selected, if any *)
| Enter (sc : scope)             (* open a scope *)
| Alter (g : scope -> scope)     (* change the innermost scope *)
| Leave                          (* close it *)
| Halt (err : rerr).             (* give up with an error *)
(** the program that takes these steps for the block [t], stops at the first one that fails, and gives [v] in the end *)
Fixpoint in_steps (t : tpl) (l : list hstep) (v : option json) : hprog :=
  match l with
  | [] => HRet v
  | Say x esc :: l => HWrite x esc (htry (fun _ => in_steps t l v))
  | Put x :: l => HOut x (htry (fun _ => in_steps t l v))
  | Show :: l => HTemplate t (htry (fun _ => in_steps t l v))
  | Otherwise :: l => HInverse t (htry (fun o => match o with Some u => HTemplate u (htry (fun _ => in_steps t l v)) | None => in_steps t l v end))
  | Enter sc :: l => HPushScope sc (in_steps t l v)
  | Alter g :: l => HScopeMut g (in_steps t l v)
  | Leave :: l => HPopScope (fun _ => in_steps t l v)
  | Halt err :: _ => HFail err
  end.
(** helper [f] called for a block with these arguments does here what these steps do *)
Definition performs (w : world) (scs : list scope) (f : helper) (n : str) (vs : list json) (ps : list (str * json)) (prop : option (str * json)) (l : list hstep) (v : option json) : Prop :=
  forall ctx t, hc_name ctx = n -> hc_args ctx = vs -> hc_params ctx = ps -> hc_text ctx = None -> hc_property ctx = prop ->
  forall K en st, sees w scs en st -> run K en (f ctx (Some t)) st = run K en (in_steps t l v) st.
(** the helpers of the library that render their block *)
Definition block_helpers : list str := [lit "if"; lit "unless"; lit "with"; lit "each"].
(** a block [{{#n}}] is given to [f] under the name [name]: the helper [n], when it is not one of these, or the handler for blocks *)
Inductive block_by (w : world) (scs : list scope) (n : str) : str -> helper -> option (str * json) -> Prop :=
| by_helper f : assoc n (rg_helpers (w_reg w)) = Some f -> ~ (In n block_helpers /\ builtin (w_plat w) n f) -> block_by w scs n n f None
| by_handler f v : assoc n (rg_helpers (w_reg w)) = None -> path_value (w_data w) scs (HdName n) [] v -> rg_block_missing (w_reg w) = Some f ->
    block_by w scs n (lit "blockHelperMissing") f (Some (n, v)).
(** nothing to strip *)
Definition solid (x : str) : Prop := (forall c r, x = c :: r -> ~ In c white_space) /\ (forall c r, x = r ++ [c] -> ~ In c white_space).
Definition renderings (l : list hstep) : nat := length (filter (fun x => match x with Show | Otherwise => true | _ => false end) l).

(** [item_out w scs act pb pb' s e i out]: item [i] writes [out]; [s], [e]: a [~] of the neighbour strips its start, its end.
    [pb], [pb']: what [@partial-block] stands for before and after.  (The content of a partial block stays
    [@partial-block] after the block ends: Props_Blocks.C45_partial_block_stays_refuted.) *)
Inductive item_out (w : world) : list scope -> list site -> option (list item) -> option (list item) -> bool -> bool -> item -> str -> Prop :=
| io_text scs act pb s e x y : stripped s e x y -> item_out w scs act pb pb s e (IText x) y
| io_value scs act pb s e triple m c v x y :
    call_value w scs act c (Some v) -> shown (pl_fstr (w_plat w)) v x -> stripped s e x y ->
    item_out w scs act pb pb s e (ICall triple m false c) (if triple then y else written (rg_escape (w_reg w)) y)
| io_missing scs act pb s e triple m c : call_value w scs act c None -> item_out w scs act pb pb s e (ICall triple m false c) []
(** a helper (or handler) that writes; the value it gives, if any, is written after that *)
| io_print scs act pb s e triple m h t xs hs n f ws out :
    called w scs h t n f -> helper_call w scs act false n f xs hs None None (writes ws None) -> helper_out w s e (writes ws None) out ->
    item_out w scs act pb pb s e (ICall triple m false (Call h t xs hs)) out
| io_print_value scs act pb s e triple m h t xs hs n f ws out v x y :
    called w scs h t n f -> helper_call w scs act false n f xs hs None None (writes ws (Some v)) -> helper_out w s e (writes ws (Some v)) out ->
    shown (pl_fstr (w_plat w)) v x -> stripped s e x y ->
    item_out w scs act pb pb s e (ICall triple m false (Call h t xs hs)) (out ++ (if triple then y else written (rg_escape (w_reg w)) y))
(** [{{(c) ...}}]: what stands after [(c)] is not used *)
| io_dyn_value scs act pb s e triple m c xs hs v x y :
    call_value w scs act c (Some v) -> shown (pl_fstr (w_plat w)) v x -> stripped s e x y ->
    item_out w scs act pb pb s e (IDyn triple m false c xs hs) (if triple then y else written (rg_escape (w_reg w)) y)
| io_dyn_missing scs act pb s e triple m c xs hs : call_value w scs act c None -> item_out w scs act pb pb s e (IDyn triple m false c xs hs) []
| io_dyn_print scs act pb s e triple m h t xs hs xs' hs' n f ws out :
    called w scs h t n f -> helper_call w scs act false n f xs hs None None (writes ws None) -> helper_out w s e (writes ws None) out ->
    item_out w scs act pb pb s e (IDyn triple m false (Call h t xs hs) xs' hs') out
| io_dyn_print_value scs act pb s e triple m h t xs hs xs' hs' n f ws out v x y :
    called w scs h t n f -> helper_call w scs act false n f xs hs None None (writes ws (Some v)) -> helper_out w s e (writes ws (Some v)) out ->
    shown (pl_fstr (w_plat w)) v x -> stripped s e x y ->
    item_out w scs act pb pb s e (IDyn triple m false (Call h t xs hs) xs' hs') (out ++ (if triple then y else written (rg_escape (w_reg w)) y))
| io_comment scs act pb s e x : item_out w scs act pb pb s e (IComment x) []
| io_raw_comment scs act pb s e x : item_out w scs act pb pb s e (IRawComment x) []
| io_escaped scs act pb s e x y : stripped s e (lit "{{" ++ x ++ lit "}}") y -> item_out w scs act pb pb s e (IEscaped x) y
| io_link scs act pb s e esc parts y :
    esc = true \/ pl_links (w_plat w) = false \/ rg_link (w_reg w) = None ->
    stripped s e (lit "[[" ++ link_text parts ++ lit "]]") y -> item_out w scs act pb pb s e (ILink esc parts) y
(** the link handler gets the three parts, absent ones empty *)
| io_link_handler scs act pb s e parts f p out :
    pl_links (w_plat w) = true -> rg_link (w_reg w) = Some f -> count_site (SHelper (lit "link")) act < 32 ->
    acts w scs f (lit "link") [JStr (link_arg parts 0); JStr (link_arg parts 1); JStr (link_arg parts 2)] [] None None false p -> helper_out w s e p out ->
    item_out w scs act pb pb s e (ILink false parts) out
| io_raw scs act pb s e n xs hs m x m' y z :
    assoc n (rg_helpers (w_reg w)) = None -> stripped (tl_after m) (tl_before m') x y -> stripped s e y z ->
    item_out w scs act pb pb s e (IRaw (Call (HdName n) [] xs hs) m x m') z
(** a helper gets the content of a raw block as its text *)
| io_raw_helper scs act pb s e n xs hs m x m' f y p out :
    assoc n (rg_helpers (w_reg w)) = Some f -> stripped (tl_after m) (tl_before m') x y ->
    helper_call w scs act true n f xs hs (Some y) None p -> helper_out w s e p out ->
    item_out w scs act pb pb s e (IRaw (Call (HdName n) [] xs hs) m x m') out
(** [{{> name context key=value}}] *)
| io_partial scs act pb pb' s e triple m h t xs hs n d sc out :
    partial_name h t n -> ~ In (SPartial n) act -> partial_source w pb n d -> partial_args w scs act n xs hs sc ->
    items_out w (sc :: scs) (SPartial n :: act) pb pb' false false d out ->
    item_out w scs act pb pb' s e (ICall triple m true (Call h t xs hs)) out
(** [{{> (c) context key=value}}]: the text of the value of [c] is the name *)
| io_dyn_partial scs act pb pb' s e triple m c v xs hs n d sc out :
    call_value w scs act c v -> shown (pl_fstr (w_plat w)) (match v with Some v => v | None => JNull end) n ->
    ~ In (SPartial n) act -> partial_source w pb n d -> partial_args w scs act n xs hs sc ->
    items_out w (sc :: scs) (SPartial n :: act) pb pb' false false d out ->
    item_out w scs act pb pb' s e (IDyn triple m true c xs hs) out
(** [{{#> name context key=value}}body{{/name}}] *)
| io_partial_block scs act pb pb' s e n xs hs m body bs m' d sc out :
    ~ In (SPartial n) act -> partial_source w (Some body) n d -> partial_args w scs act n xs hs sc ->
    items_out w (sc :: scs) (SPartial n :: act) (Some body) pb' false false d out ->
    item_out w scs act pb pb' s e (IBlock true (Call (HdName n) [] xs hs) m body bs m') out
(** blocks *)
| io_if scs act pb pb' s e x hs m body bs m' v out :
    block_arg w scs act (lit "if") x hs v -> ~ falsy v ->
    items_out w scs (SBlock (lit "if") :: act) pb pb' (tl_after m) (tl_before (next_tag bs m')) body out ->
    item_out w scs act pb pb' s e (IBlock false (Call (HdName (lit "if")) [] [x] hs) m body bs m') out
| io_if_else scs act pb pb' s e x hs m body bs m' v r out :
    block_arg w scs act (lit "if") x hs v -> falsy v ->
    else_branch w scs (SBlock (lit "if") :: act) bs r -> else_out w scs (SBlock (lit "if") :: act) pb pb' m' r out ->
    item_out w scs act pb pb' s e (IBlock false (Call (HdName (lit "if")) [] [x] hs) m body bs m') out
| io_unless scs act pb pb' s e x hs m body bs m' v out :
    block_arg w scs act (lit "unless") x hs v -> falsy v ->
    items_out w scs (SBlock (lit "unless") :: act) pb pb' (tl_after m) (tl_before (next_tag bs m')) body out ->
    item_out w scs act pb pb' s e (IBlock false (Call (HdName (lit "unless")) [] [x] hs) m body bs m') out
| io_unless_else scs act pb pb' s e x hs m body bs m' v r out :
    block_arg w scs act (lit "unless") x hs v -> ~ falsy v ->
    else_branch w scs (SBlock (lit "unless") :: act) bs r -> else_out w scs (SBlock (lit "unless") :: act) pb pb' m' r out ->
    item_out w scs act pb pb' s e (IBlock false (Call (HdName (lit "unless")) [] [x] hs) m body bs m') out
| io_with scs act pb pb' s e x hs m body bs m' v out :
    block_arg w scs act (lit "with") x hs v -> v <> JNull ->
    items_out w (mkScope (Some v) [] :: scs) (SBlock (lit "with") :: act) pb pb' (tl_after m) (tl_before (next_tag bs m')) body out ->
    item_out w scs act pb pb' s e (IBlock false (Call (HdName (lit "with")) [] [x] hs) m body bs m') out
| io_with_null scs act pb s e x hs m body bs m' :
    block_arg w scs act (lit "with") x hs JNull ->
    item_out w scs act pb pb s e (IBlock false (Call (HdName (lit "with")) [] [x] hs) m body bs m') []
| io_each scs act pb pb' s e x hs m body bs m' v its out :
    block_arg w scs act (lit "each") x hs v -> iterations_of v its ->
    rounds_out w its scs (SBlock (lit "each") :: act) pb pb' (tl_after m) (tl_before (next_tag bs m')) body out ->
    item_out w scs act pb pb' s e (IBlock false (Call (HdName (lit "each")) [] [x] hs) m body bs m') out
(** a block whose name is no helper: shown when the variable exists *)
| io_block scs act pb pb' s e n xs hs m body bs m' v out :
    assoc n (rg_helpers (w_reg w)) = None -> rg_block_missing (w_reg w) = None -> path_value (w_data w) scs (HdName n) [] v ->
    items_out w scs act pb pb' (tl_after m) (tl_before (next_tag bs m')) body out ->
    item_out w scs act pb pb' s e (IBlock false (Call (HdName n) [] xs hs) m body bs m') out
| io_block_missing scs act pb s e n xs hs m body bs m' :
    assoc n (rg_helpers (w_reg w)) = None -> rg_missing (w_reg w) = None -> rg_strict (w_reg w) = false -> no_value (w_data w) scs (HdName n) [] ->
    item_out w scs act pb pb s e (IBlock false (Call (HdName n) [] xs hs) m body bs m') []
(** a block helper or handler that writes or gives a value (which is not used) *)
| io_block_helper scs act pb s e n xs hs m body bs m' f p out :
    assoc n (rg_helpers (w_reg w)) = Some f -> helper_call w scs act true n f xs hs None None p -> helper_out w s e p out ->
    item_out w scs act pb pb s e (IBlock false (Call (HdName n) [] xs hs) m body bs m') out
| io_block_handler scs act pb s e n xs hs m body bs m' v f p out :
    assoc n (rg_helpers (w_reg w)) = None -> path_value (w_data w) scs (HdName n) [] v -> rg_block_missing (w_reg w) = Some f ->
    helper_call w scs act true (lit "blockHelperMissing") f xs hs None (Some (n, v)) p -> helper_out w s e p out ->
    item_out w scs act pb pb s e (IBlock false (Call (HdName n) [] xs hs) m body bs m') out
| io_block_missing_handler scs act pb s e n xs hs m body bs m' f p out :
    assoc n (rg_helpers (w_reg w)) = None -> no_value (w_data w) scs (HdName n) [] -> rg_missing (w_reg w) = Some f ->
    helper_call w scs act false (lit "helperMissing") f xs hs None None p -> helper_out w s e p out ->
    item_out w scs act pb pb s e (IBlock false (Call (HdName n) [] xs hs) m body bs m') out
(** a block helper (or handler for blocks) that takes steps; with more than one rendering only where [~] does no harm *)
| io_own scs act pb pb' s e n xs hs m body bs m' name f prop vs pairs ps l v out :
    block_by w scs n name f prop -> count_site (SBlock name) act < 32 ->
    args_value w scs (SBlock name :: act) xs vs -> hash_value w scs (SBlock name :: act) hs pairs -> map_of ps pairs ->
    performs w scs f name vs ps prop l v ->
    renderings l <= 1 \/ tl_after m = true \/ (quiet_body w body /\ Forall (fun b => quiet_body w (br_body b)) bs) ->
    steps_out w scs (SBlock name :: act) pb pb' m body bs m' scs l out ->
    item_out w scs act pb pb' s e (IBlock false (Call (HdName n) [] xs hs) m body bs m') out
(** items in a row; [s]: a [~] right before the first, [e]: a [~] right after the last *)
with items_out (w : world) : list scope -> list site -> option (list item) -> option (list item) -> bool -> bool -> list item -> str -> Prop :=
| out_nil scs act pb s e : items_out w scs act pb pb s e [] []
| out_cons scs act pb pb1 pb' s e i l o o' :
    item_out w scs act pb pb1 s (next_before e l) i o -> items_out w scs act pb1 pb' (after i) e l o' -> items_out w scs act pb pb' s e (i :: l) (o ++ o')
(** the body once per scope *)
with rounds_out (w : world) : list scope -> list scope -> list site -> option (list item) -> option (list item) -> bool -> bool -> list item -> str -> Prop :=
| round_none scs act pb s e l : rounds_out w [] scs act pb pb s e l []
| round_next sc its scs act pb pb1 pb' s e l o o' :
    items_out w (sc :: scs) act pb pb1 s e l o -> rounds_out w its scs act pb1 pb' s e l o' -> rounds_out w (sc :: its) scs act pb pb' s e l (o ++ o')
(** the selected branch; [post] are the branches after it *)
with else_out (w : world) : list scope -> list site -> option (list item) -> option (list item) -> tildes -> option (branch * list branch) -> str -> Prop :=
| else_nothing scs act pb m' : else_out w scs act pb pb m' None []
| else_some scs act pb pb' m' b post out :
    items_out w scs act pb pb' (tl_after (br_tildes b)) (tl_before (next_tag post m')) (br_body b) out -> else_out w scs act pb pb' m' (Some (b, post)) out
(** the steps [l] of a helper for the block with this content and these branches, from the scopes [cur] on; in the end the scopes are [scs] again *)
with steps_out (w : world) : list scope -> list site -> option (list item) -> option (list item) -> tildes -> list item -> list branch -> tildes -> list scope -> list hstep -> str -> Prop :=
| steps_end scs act pb m body bs m' : steps_out w scs act pb pb m body bs m' scs [] []
| steps_say scs act pb pb' m body bs m' cur x esc l o :
    solid x -> steps_out w scs act pb pb' m body bs m' cur l o -> steps_out w scs act pb pb' m body bs m' cur (Say x esc :: l) ((if esc then written (rg_escape (w_reg w)) x else x) ++ o)
| steps_put scs act pb pb' m body bs m' cur x l o :
    steps_out w scs act pb pb' m body bs m' cur l o -> steps_out w scs act pb pb' m body bs m' cur (Put x :: l) (x ++ o)
| steps_show scs act pb pb1 pb' m body bs m' cur l o o' :
    items_out w cur act pb pb1 (tl_after m) (tl_before (next_tag bs m')) body o -> steps_out w scs act pb1 pb' m body bs m' cur l o' ->
    steps_out w scs act pb pb' m body bs m' cur (Show :: l) (o ++ o')
| steps_else scs act pb pb1 pb' m body bs m' cur r l o o' :
    else_branch w cur act bs r -> else_out w cur act pb pb1 m' r o -> steps_out w scs act pb1 pb' m body bs m' cur l o' ->
    steps_out w scs act pb pb' m body bs m' cur (Otherwise :: l) (o ++ o')
| steps_enter scs act pb pb' m body bs m' cur sc l o :
    steps_out w scs act pb pb' m body bs m' (sc :: cur) l o -> steps_out w scs act pb pb' m body bs m' cur (Enter sc :: l) o
| steps_alter scs act pb pb' m body bs m' cur sc g l o :
    steps_out w scs act pb pb' m body bs m' (g sc :: cur) l o -> steps_out w scs act pb pb' m body bs m' (sc :: cur) (Alter g :: l) o
| steps_leave scs act pb pb' m body bs m' cur sc l o :
    steps_out w scs act pb pb' m body bs m' cur l o -> steps_out w scs act pb pb' m body bs m' (sc :: cur) (Leave :: l) o.

(** ** Where [~] may stand
    The code gets [~] wrong in some places (see Props_Sem for an example of each); [regular] excludes exactly these:
    - after a closing block tag;
    - before [{{else}}], unless the closing tag has one too, and before a second [{{else}}];
    - after the opening tag of a block, when one of its branches does not start with [~];
    - after the opening tag (or [{{else}}]) of a block in which something follows an inner block;
    - after a partial tag; after a raw block that ends a partial or the content of a partial block;
    - at the inner side of the tags of a partial block;
    - after any tag inside the content of a partial block that may be included in the body of an [each] (see [quiet_docs]);
    - after any tag inside the body of [each], unless the opening tag has [~]. *)
Definition is_blocky (i : item) : bool := match i with IRaw _ _ _ _ | IBlock _ _ _ _ _ _ => true | _ => false end.
Definition flat (l : list item) : Prop := forall pre i j post, l = pre ++ i :: j :: post -> is_blocky i = false.
Definition calm_end (l : list item) : Prop := forall a c m x m', l = a ++ [IRaw c m x m'] -> tl_after m' = false.
Inductive regular (w : world) : item -> Prop :=
| reg_text s : regular w (IText s)
| reg_call triple m c : regular w (ICall triple m false c)
| reg_partial triple m c : tl_after m = false -> regular w (ICall triple m true c)
| reg_dyn triple m c xs hs : regular w (IDyn triple m false c xs hs)
| reg_dyn_partial triple m c xs hs : tl_after m = false -> regular w (IDyn triple m true c xs hs)
| reg_comment s : regular w (IComment s)
| reg_raw_comment s : regular w (IRawComment s)
| reg_escaped s : regular w (IEscaped s)
| reg_link esc parts : regular w (ILink esc parts)
| reg_raw c m s m' : regular w (IRaw c m s m')
| reg_block c m body bs m' :
    tl_after m' = false ->
    (match bs with [] => True | b :: r => tl_before (br_tildes b) = tl_before m' /\ Forall (fun x => tl_before (br_tildes x) = false) r end) ->
    (tl_after m = true -> flat body /\ Forall (fun b => tl_after (br_tildes b) = true) bs) ->
    Forall (fun b => tl_after (br_tildes b) = true -> flat (br_body b)) bs ->
    (call_name c = lit "each" -> tl_after m = true \/ quiet_body w body) ->
    Forall (regular w) body -> Forall (fun b => Forall (regular w) (br_body b)) bs ->
    regular w (IBlock false c m body bs m')
| reg_partial_block c m body bs m' :
    tl_after m = false -> tl_before (next_tag bs m') = false -> tl_after m' = false -> calm_end body ->
    (quiet_docs w -> existsb loud body = false) -> Forall (regular w) body ->
    regular w (IBlock true c m body bs m').

(** ** When a world fits the registry *)
Record fits (w : world) : Prop := mkFits {
  (** the hash table lists the pairs of a call, in any order *)
  fit_order : forall src c, Permutation (pl_order (w_plat w) src c) (c_params c);
  (** every partial has been compiled from a text that writes its tree *)
  fit_docs : forall n d, assoc n (w_docs w) = Some d -> doc_ok (pl_penv (w_plat w)) d /\ Forall (regular w) d
    /\ calm_end d /\ exists te o s, assoc n (rg_templates (w_reg w)) = Some te /\ doc_writes Loose d s /\ template_compile (w_plat w) o s = AOk te }.

(** is there a [~] right before what follows the items [l], [s] being the one before them *)
Fixpoint last_after (s : bool) (l : list item) : bool := match l with [] => s | i :: r => last_after (after i) r end.
