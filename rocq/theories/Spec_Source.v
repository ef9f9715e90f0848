(** * Spec_Source: template source text described by a syntax tree that is independent of the parser.
    [doc_text] prints a tree as source text in one fixed layout; [doc_writes Loose d s] says that [s] is a way
    of writing [d] with any white space inside its tags; [doc_ok] says which trees print unambiguously, and
    [node_is] says when an AST node carries exactly the content of a tree (looked at only
    through the accessors of the AST, never through spans).  No proofs in this file. *)
From Coq Require Import String.
From Verif Require Import Str Lexer Json Ast Parser Render Spec_Lexer.
Open Scope nat_scope. Open Scope list_scope.

(** ** Names and paths *)
Definition reserved : list str := [lit "else"; lit "this"; lit "true"; lit "false"; lit "null"].
(** Unicode white space: tab to carriage return, the space, U+0085, U+00A0, U+1680, U+2000 to U+200A, U+2028, U+2029,
    U+202F, U+205F and U+3000 *)
Definition white_space : list chr :=
  [9; 10; 11; 12; 13; 32; 133; 160; 5760; 8192; 8193; 8194; 8195; 8196; 8197; 8198; 8199; 8200; 8201; 8202; 8232; 8233; 8239; 8287; 12288]%N.
(** an identifier may contain every character but white space and these *)
Definition punctuation : str := lit "!""#%&'()*+,./;<=>@[]^`{|}~".
Definition ident_char (c : chr) : bool := negb (existsb (N.eqb c) (white_space ++ punctuation)).
(** an identifier: identifier characters only, not starting like a number, not a keyword *)
Definition name_ok (w : str) : Prop :=
  match w with [] => False | c :: _ => ~ In c (lit "-0123456789") end
  /\ forallb ident_char w = true /\ ~ In w reserved.

(** ** Quoted text *)
Definition quote_of (single : bool) : chr := if single then 39%N else 34%N.
(** one element of a quoted string: a character, an escaped newline [\n], an escaped quote *)
Inductive sitem := SChar (c : chr) | SNewline | SQuote.
Definition sitem_text (q : chr) (x : sitem) : str :=
  match x with SChar c => [c] | SNewline => [92; 110]%N | SQuote => [92%N; q] end.
Definition sitem_value (q : chr) (x : sitem) : chr :=
  match x with SChar c => c | SNewline => 10%N | SQuote => q end.
(** characters other than the quote and newline; a backslash character is not followed by what would make
    it an escape; the last element is a character and not a backslash *)
Fixpoint sitems_ok (q : chr) (l : list sitem) : Prop :=
  match l with
  | [] => True
  | SChar c :: l' =>
      c <> q /\ c <> 10%N
      /\ (c = 92%N -> match l' with [] => False | SChar d :: _ => d <> 110%N | _ => True end)
      /\ sitems_ok q l'
  | _ :: l' => l' <> [] /\ sitems_ok q l'
  end.

(** one segment of a path after the first: [.name], [/name], [.[raw text]], [."quoted"], [.'quoted'] *)
Inductive seg := SName (w : str) | SBracket (w : str) | SQuoted (single : bool) (l : list sitem).
Definition seg_value (s : seg) : str :=
  match s with SName w => w | SBracket w => w | SQuoted sg l => map (sitem_value (quote_of sg)) l end.
Definition seg_text (s : seg) : str :=
  match s with
  | SName w => w
  | SBracket w => [91%N] ++ w ++ [93%N]
  | SQuoted sg l => [quote_of sg] ++ flat_map (sitem_text (quote_of sg)) l ++ [quote_of sg]
  end.
Definition seg_ok (s : seg) : Prop :=
  match s with
  | SName w => name_ok w
  | SBracket w => w <> [] /\ (forall c, In c w -> c <> 93%N /\ c <> 10%N) /\ w <> [92%N]
  | SQuoted sg l => sitems_ok (quote_of sg) l
  end.
Definition tail := list (bool * seg).      (* true: the delimiter is a slash *)
Definition delim_text (slash : bool) : str := if slash then [47%N] else [46%N].
Fixpoint tail_text (t : tail) : str :=
  match t with [] => [] | (d, s) :: t => delim_text d ++ seg_text s ++ tail_text t end.
Definition tail_ok (t : tail) : Prop := Forall (fun x => seg_ok (snd x)) t.

(** how a path starts: [name], [this], [./name], [../../name], [@name]; an argument may also start [/name] *)
Inductive head :=
| HdName (w : str)
| HdThis
| HdDot (s : seg)
| HdUp (k : nat) (w : str)
| HdLocal (w : str)
| HdAbs (w : str).
Fixpoint ups (k : nat) : str := match k with 0 => [] | S k => lit "../" ++ ups k end.
Definition head_text (h : head) : str :=
  match h with
  | HdName w => w
  | HdThis => lit "this"
  | HdDot s => lit "./" ++ seg_text s
  | HdUp k w => ups k ++ w
  | HdLocal w => [64%N] ++ w
  | HdAbs w => [47%N] ++ w
  end.
Definition head_ok (h : head) : Prop :=
  match h with
  | HdName w => name_ok w
  | HdThis => True
  | HdDot s => seg_ok s
  | HdUp k w => 1 <= k <= 255 /\ name_ok w
  | HdLocal w => w <> [] /\ forallb ident_char w = true
  | HdAbs _ => False
  end.
Definition arg_head_ok (h : head) : Prop := head_ok h \/ exists w, h = HdAbs w /\ name_ok w.
(** the parts of a path as the renderer sees them *)
Definition head_parts (h : head) : list str :=
  match h with
  | HdName w => [w]
  | HdThis => [lit "this"]
  | HdDot s => [lit "./"; seg_value s]
  | HdUp _ w => [w]
  | HdLocal w => [[64%N] ++ w]
  | HdAbs w => [w]
  end.
Definition path_text (h : head) (t : tail) : str := head_text h ++ tail_text t.
Definition path_parts (h : head) (t : tail) : list str := head_parts h ++ map (fun x => seg_value (snd x)) t.
Definition seg_literal (s : seg) : bool := match s with SName _ => false | _ => true end.
Definition ends_in_literal (h : head) (t : tail) : bool :=
  match rev t with
  | (_, s) :: _ => seg_literal s
  | [] => match h with HdDot s => seg_literal s | _ => false end
  end.
(** a path as the AST and error messages show it: it is cut after the opening bracket or quote when it ends in a bracket or quoted segment *)
Definition seg_shown (s : seg) : str := match s with SName w => w | SBracket _ => [91%N] | SQuoted sg _ => [quote_of sg] end.
Fixpoint tail_shown (t : tail) : str :=
  match t with
  | [] => []
  | [(d, s)] => delim_text d ++ seg_shown s
  | (d, s) :: t => delim_text d ++ seg_text s ++ tail_shown t
  end.
Definition path_shown (h : head) (t : tail) : str :=
  match h, t with
  | HdDot s, [] => lit "./" ++ seg_shown s
  | _, _ => head_text h ++ tail_shown t
  end.

(** ** Literals and calls *)
Inductive expr :=
| EStr (single : bool) (l : list sitem)
| EArr (w : str)                                                      (* [w]: the text w *)
| ENum (s : str)
| EBool (b : bool)
| ENull
| EPath (h : head) (t : tail)
| ESub (c : callx)
with callx :=
| Call (h : head) (t : tail) (args : list expr) (hash : list (str * expr)).

Fixpoint expr_text (e : expr) : str :=
  match e with
  | EStr sg l => [quote_of sg] ++ flat_map (sitem_text (quote_of sg)) l ++ [quote_of sg]
  | EArr w => [91%N] ++ w ++ [93%N]
  | ENum s => s
  | EBool true => lit "true"
  | EBool false => lit "false"
  | ENull => lit "null"
  | EPath h t => path_text h t
  | ESub c => [40%N] ++ call_text c ++ [41%N]
  end
with call_text (c : callx) : str :=
  match c with
  | Call h t args hash =>
      path_text h t
      ++ flat_map (fun e => [32%N] ++ expr_text e) args
      ++ flat_map (fun kv => [32%N] ++ fst kv ++ [61%N] ++ expr_text (snd kv)) hash
  end.
(** a call whose target is itself a call: [(c) args hash] *)
Definition dyn_text (c : callx) (args : list expr) (hash : list (str * expr)) : str :=
  expr_text (ESub c) ++ flat_map (fun e => [32%N] ++ expr_text e) args
  ++ flat_map (fun kv => [32%N] ++ fst kv ++ [61%N] ++ expr_text (snd kv)) hash.
(** ** White space inside tags *)
(** [Tight]: the spacing of [expr_text], [call_text], [item_text]; [Loose]: any spaces, tabs and newlines *)
Inductive layout := Tight | Loose.
Definition blank_str (g : str) : Prop := forall c, In c g -> In c [32; 9]%N.
Definition gap_str (g : str) : Prop := forall c, In c g -> In c [32; 9; 10]%N.
(** between two arguments: at least one; [around]: possibly none; [blank_gap]: no newline; after [>]: possibly none *)
Definition between (ly : layout) (g : str) : Prop := match ly with Tight => g = [32%N] | Loose => gap_str g /\ g <> [] end.
Definition around (ly : layout) (g : str) : Prop := match ly with Tight => g = [] | Loose => gap_str g end.
Definition blank_gap (ly : layout) (g : str) : Prop := match ly with Tight => g = [] | Loose => blank_str g end.
Definition after_gt (ly : layout) (g : str) : Prop := match ly with Tight => g = [32%N] | Loose => gap_str g end.

(** [expr_writes ly e s]: [s] is a way of writing [e] *)
Inductive expr_writes (ly : layout) : expr -> str -> Prop :=
| w_str sg l : expr_writes ly (EStr sg l) (expr_text (EStr sg l))
| w_arr w : expr_writes ly (EArr w) (expr_text (EArr w))
| w_num s : expr_writes ly (ENum s) s
| w_bool b : expr_writes ly (EBool b) (expr_text (EBool b))
| w_null : expr_writes ly ENull (lit "null")
| w_path h t : expr_writes ly (EPath h t) (path_text h t)
| w_sub c g u g' : around ly g -> call_writes ly c u -> around ly g' ->
    expr_writes ly (ESub c) ([40%N] ++ g ++ u ++ g' ++ [41%N])
with call_writes (ly : layout) : callx -> str -> Prop :=
| w_call h t args hash sa sh : args_write ly args sa -> hash_writes ly hash sh ->
    call_writes ly (Call h t args hash) (path_text h t ++ sa ++ sh)
with args_write (ly : layout) : list expr -> str -> Prop :=
| w_args_nil : args_write ly [] []
| w_args_cons e l g u r : between ly g -> expr_writes ly e u -> args_write ly l r -> args_write ly (e :: l) (g ++ u ++ r)
with hash_writes (ly : layout) : list (str * expr) -> str -> Prop :=
| w_hash_nil : hash_writes ly [] []
| w_hash_cons k e l g u r : between ly g -> expr_writes ly e u -> hash_writes ly l r ->
    hash_writes ly ((k, e) :: l) (g ++ (k ++ [61%N]) ++ u ++ r).
Definition dyn_writes (ly : layout) (c : callx) (args : list expr) (hash : list (str * expr)) (s : str) : Prop :=
  exists u sa sh, s = u ++ sa ++ sh /\ expr_writes ly (ESub c) u /\ args_write ly args sa /\ hash_writes ly hash sh.

(** keys of hash arguments: any identifier characters *)
(** a number: [-?([0-9]+\.)?[0-9]+([eE][+-]?[0-9]+)?] *)
Definition digits (s : str) : Prop := s <> [] /\ forall c, In c s -> In c (lit "0123456789").
Inductive number_text : str -> Prop :=
| num_text sign whole frac exponent :
    In sign [[]; lit "-"] -> digits whole ->
    (frac = [] \/ exists f, frac = lit "." ++ f /\ digits f) ->
    (exponent = [] \/ exists m sg x, exponent = m ++ sg ++ x /\ In m [lit "e"; lit "E"] /\ In sg [[]; lit "+"; lit "-"] /\ digits x) ->
    number_text (sign ++ whole ++ frac ++ exponent).

Definition key_ok (k : str) : Prop := k <> [] /\ forallb ident_char k = true.
Inductive expr_ok (pe : penv) : expr -> Prop :=
| ok_str sg l : sitems_ok (quote_of sg) l -> expr_ok pe (EStr sg l)
| ok_arr w : (forall c, In c w -> c <> 93%N /\ c <> 10%N) -> w <> [92%N] -> expr_ok pe (EArr w)
| ok_num s n : number_text s -> parse_number (pe_num pe) s = Some n -> expr_ok pe (ENum s)
| ok_bool b : expr_ok pe (EBool b)
| ok_null : expr_ok pe ENull
| ok_path h t : arg_head_ok h -> tail_ok t -> expr_ok pe (EPath h t)
| ok_sub c : callx_ok pe c -> expr_ok pe (ESub c)
with callx_ok (pe : penv) : callx -> Prop :=
| ok_call h t args hash :
    head_ok h -> tail_ok t -> Forall (expr_ok pe) args ->
    Forall (fun kv => key_ok (fst kv) /\ expr_ok pe (snd kv)) hash -> NoDup (map fst hash) ->
    callx_ok pe (Call h t args hash).
Definition args_ok (pe : penv) (args : list expr) (hash : list (str * expr)) : Prop :=
  Forall (expr_ok pe) args /\ Forall (fun kv => key_ok (fst kv) /\ expr_ok pe (snd kv)) hash /\ NoDup (map fst hash).

(** ** What the AST of a path, argument or call carries *)
Definition path_is (src : str) (p : path) (h : head) (t : tail) : Prop :=
  comp_values src (pa_comps p) = Some (path_parts h t)
  /\ pa_absolute p = match h with HdAbs _ => true | _ => false end
  /\ pa_parents p = match h with HdUp k _ => N.of_nat k | _ => 0%N end
  /\ pa_explicit p = match h with HdThis | HdDot _ => true | _ => false end
  /\ pa_root p = match h with HdLocal w => streq w (lit "root") | _ => false end
  /\ path_is_local p = match h with HdLocal _ => true | _ => false end
  /\ path_is_simple p = match h, t with HdName _, [] | HdUp _ _, [] | HdAbs _, [] => true | _, _ => false end
  /\ path_str src p = Some (path_shown h t).

Inductive param_is (ly : layout) (pe : penv) (src : str) : param -> expr -> Prop :=
| is_str sg l sp ln : sl src sp = Some (expr_text (EStr sg l)) -> param_is ly pe src (VJson (JStr (map (sitem_value (quote_of sg)) l)) sp ln) (EStr sg l)
| is_arr w sp ln : sl src sp = Some (expr_text (EArr w)) -> param_is ly pe src (VJson (JStr w) sp ln) (EArr w)
| is_num s n sp ln : parse_number (pe_num pe) s = Some n -> sl src sp = Some (expr_text (ENum s)) -> param_is ly pe src (VJson (JNum n) sp ln) (ENum s)
| is_bool b sp ln : sl src sp = Some (expr_text (EBool b)) -> param_is ly pe src (VJson (JBool b) sp ln) (EBool b)
| is_null sp ln : sl src sp = Some (expr_text ENull) -> param_is ly pe src (VJson JNull sp ln) ENull
| is_path p h t : path_is src p h t -> param_is ly pe src (VPath p) (EPath h t)
| is_sub c x u : call_is ly pe src false false c x -> call_str src c = Some u -> expr_writes ly (ESub x) u -> param_is ly pe src (VSub c) (ESub x)
(** [call_is partial conditional]: the flags [>] and [else], the target, the arguments and hash arguments in order *)
with call_is (ly : layout) (pe : penv) (src : str) : bool -> bool -> call -> callx -> Prop :=
| is_call pt cd op cl p args params ln h t xs hs :
    path_is src p h t ->
    Forall2 (param_is ly pe src) args xs ->
    Forall2 (fun kp kv => fst kp = fst kv /\ param_is ly pe src (snd kp) (snd kv)) params hs ->
    call_is ly pe src pt cd (mkCall pt cd op (Some cl) (TPath p) args params ln) (Call h t xs hs).
(** a call whose target is the call [x] *)
Inductive dyn_is (ly : layout) (pe : penv) (src : str) (pt : bool) : call -> callx -> list expr -> list (str * expr) -> Prop :=
| is_dyn op cl sub args params ln x u xs hs :
    call_is ly pe src false false sub x -> call_str src sub = Some u -> expr_writes ly (ESub x) u ->
    Forall2 (param_is ly pe src) args xs ->
    Forall2 (fun kp kv => fst kp = fst kv /\ param_is ly pe src (snd kp) (snd kv)) params hs ->
    dyn_is ly pe src pt (mkCall pt false op (Some cl) (TSub sub) args params ln) x xs hs.

(** ** Documents *)
(** [~] markers of a tag: before and after *)
Record tildes := mkTildes { tl_before : bool; tl_after : bool }.
Definition tilde (b : bool) : str := if b then [126%N] else [].

Inductive item :=
| IText (s : str)
| ICall (triple : bool) (m : tildes) (partial : bool) (c : callx)    (* {{c}}, {{{c}}}, {{>c}} *)
| IDyn (triple : bool) (m : tildes) (partial : bool) (c : callx)       (* {{(c) args}}, {{{(c) args}}}, {{>(c) args}} *)
       (args : list expr) (hash : list (str * expr))
| IComment (s : str)                                                  (* {{!s}} *)
| IRawComment (s : str)                                               (* {{!--s--}} *)
| IEscaped (s : str)                                                  (* \{{s}} *)
| ILink (escaped : bool) (parts : list str)                           (* [[href|label|title]] *)
| IRaw (c : callx) (m : tildes) (s : str) (m' : tildes)               (* {{{{c}}}}s{{{{/name}}}} *)
| IBlock (partial : bool) (c : callx) (m : tildes) (body : list item)
         (branches : list (option callx * tildes * list item)) (m' : tildes).

Definition call_name (c : callx) : str := match c with Call h t _ _ => path_text h t end.
Definition partial_text (p : bool) : str := if p then [62; 32]%N else [].
Definition open_tag (l : string) (m : tildes) : str := lit l ++ tilde (tl_before m).
Definition close_tag (m : tildes) (r : string) : str := tilde (tl_after m) ++ lit r.
Definition link_text (parts : list str) : str := join [124%N] parts.

Fixpoint item_text (i : item) : str :=
  match i with
  | IText s => s
  | ICall false m p c => open_tag "{{" m ++ partial_text p ++ call_text c ++ close_tag m "}}"
  | ICall true m p c => open_tag "{{{" m ++ partial_text p ++ call_text c ++ close_tag m "}}}"
  | IDyn false m p c args hash => open_tag "{{" m ++ partial_text p ++ dyn_text c args hash ++ close_tag m "}}"
  | IDyn true m p c args hash => open_tag "{{{" m ++ partial_text p ++ dyn_text c args hash ++ close_tag m "}}}"
  | IComment s => lit "{{!" ++ s ++ lit "}}"
  | IRawComment s => lit "{{!--" ++ s ++ lit "--}}"
  | IEscaped s => lit "\{{" ++ s ++ lit "}}"
  | ILink esc parts => (if esc then [92%N] else []) ++ lit "[[" ++ link_text parts ++ lit "]]"
  | IRaw c m s m' =>
      open_tag "{{{{" m ++ call_text c ++ close_tag m "}}}}" ++ s
      ++ open_tag "{{{{" m' ++ lit "/" ++ call_name c ++ close_tag m' "}}}}"
  | IBlock p c m body branches m' =>
      open_tag "{{" m ++ lit "#" ++ partial_text p ++ call_text c ++ close_tag m "}}"
      ++ flat_map item_text body
      ++ flat_map (fun b => open_tag "{{" (snd (fst b)) ++ lit "else"
                            ++ (match fst (fst b) with Some c => [32%N] ++ call_text c | None => [] end)
                            ++ close_tag (snd (fst b)) "}}" ++ flat_map item_text (snd b)) branches
      ++ open_tag "{{" m' ++ lit "/" ++ call_name c ++ close_tag m' "}}"
  end.
Definition doc_text (d : list item) : str := flat_map item_text d.

(** *** Writing with any layout *)
(** an opening delimiter [l], its [~], a mark ([#], [/] or nothing), and white space *)
Definition opening (ly : layout) (l : string) (m : tildes) (mark : str) (s : str) : Prop :=
  exists g g', s = open_tag l m ++ g ++ mark ++ g' /\ blank_gap ly g /\ around ly g'.
Definition ending (ly : layout) (m : tildes) (r : string) (s : str) : Prop := exists g, s = g ++ close_tag m r /\ around ly g.
Definition partial_writes (ly : layout) (p : bool) (s : str) : Prop :=
  if p then exists g, s = [62%N] ++ g /\ after_gt ly g else s = [].
(** a complete tag, [body] being the ways of writing what is called *)
Definition tag_around (ly : layout) (l : string) (m : tildes) (mark : str) (p : bool) (body : str -> Prop) (r : string) (s : str) : Prop :=
  exists a f u z, s = a ++ f ++ u ++ z /\ opening ly l m mark a /\ partial_writes ly p f /\ body u /\ ending ly m r z.
Definition tag_writes (ly : layout) (l : string) (m : tildes) (mark : str) (p : bool) (c : callx) (r : string) (s : str) : Prop :=
  tag_around ly l m mark p (call_writes ly c) r s.
Definition close_writes (ly : layout) (l : string) (m : tildes) (name : str) (r : string) (s : str) : Prop :=
  exists a z, s = a ++ name ++ z /\ opening ly l m [47%N] a /\ ending ly m r z.
Definition else_writes (ly : layout) (cond : option callx) (m : tildes) (s : str) : Prop :=
  exists a f z, s = a ++ lit "else" ++ f ++ z /\ opening ly "{{" m [] a /\ ending ly m "}}" z
    /\ match cond with None => f = [] | Some c => exists g u, f = g ++ u /\ between ly g /\ call_writes ly c u end.
(** the [~] before a statement is not followed by a blank (it would be ignored, see DESIGN.md section 5) *)
Definition tilde_sticks (l : string) (m : tildes) (s : str) : Prop :=
  tl_before m = true -> forall c r, s = open_tag l m ++ c :: r -> ~ In c [32; 9]%N.

Inductive item_writes (ly : layout) : item -> str -> Prop :=
| wI_text s : item_writes ly (IText s) s
| wI_call m p c s : tag_writes ly "{{" m [] p c "}}" s -> tilde_sticks "{{" m s -> item_writes ly (ICall false m p c) s
| wI_triple m p c s : tag_writes ly "{{{" m [] p c "}}}" s -> tilde_sticks "{{{" m s -> item_writes ly (ICall true m p c) s
| wI_dyn m p c xs hs s : tag_around ly "{{" m [] p (dyn_writes ly c xs hs) "}}" s -> tilde_sticks "{{" m s -> item_writes ly (IDyn false m p c xs hs) s
| wI_dyn_triple m p c xs hs s : tag_around ly "{{{" m [] p (dyn_writes ly c xs hs) "}}}" s -> tilde_sticks "{{{" m s -> item_writes ly (IDyn true m p c xs hs) s
| wI_comment s : item_writes ly (IComment s) (item_text (IComment s))
| wI_raw_comment s : item_writes ly (IRawComment s) (item_text (IRawComment s))
| wI_escaped s : item_writes ly (IEscaped s) (item_text (IEscaped s))
| wI_link esc parts : item_writes ly (ILink esc parts) (item_text (ILink esc parts))
| wI_raw c m s m' a z : tag_writes ly "{{{{" m [] false c "}}}}" a -> close_writes ly "{{{{" m' (call_name c) "}}}}" z ->
    item_writes ly (IRaw c m s m') (a ++ s ++ z)
| wI_block p c m body branches m' a ss bb z :
    tag_writes ly "{{" m [35%N] p c "}}" a -> Forall2 (item_writes ly) body ss -> branches_write ly branches bb ->
    close_writes ly "{{" m' (call_name c) "}}" z ->
    item_writes ly (IBlock p c m body branches m') (a ++ concat ss ++ bb ++ z)
with branches_write (ly : layout) : list (option callx * tildes * list item) -> str -> Prop :=
| wB_nil : branches_write ly [] []
| wB_cons cond m body rest e ss bb : else_writes ly cond m e -> Forall2 (item_writes ly) body ss -> branches_write ly rest bb ->
    branches_write ly ((cond, m, body) :: rest) (e ++ concat ss ++ bb).
(** [s] is a way of writing [d] *)
Definition doc_writes (ly : layout) (d : list item) (s : str) : Prop := exists ss, Forall2 (item_writes ly) d ss /\ s = concat ss.

(** [u] occurs in [s] *)
Definition occurs (u s : str) : Prop := exists a b, s = a ++ u ++ b.
Definition ends_in (l : list chr) (s : str) : Prop := exists a c, s = a ++ [c] /\ In c l.
Definition begins_with (c : chr) (s : str) : Prop := exists a, s = c :: a.

(** text that contains no opening tag or link *)
Definition plain (s : str) : Prop := s <> [] /\ ~ occurs (lit "{{") s /\ ~ occurs (lit "[[") s.
(** text that may also be followed by a tag: a last [{], [[] or [\] would join the tag *)
Definition plain_before (s : str) : Prop := plain s /\ ~ ends_in [123; 91; 92]%N s.
Definition plain_after (s : str) : Prop := ~ begins_with 125%N s.

(** the name of a block: an identifier whose last character is ASCII *)
Definition block_name_ok (c : callx) : Prop :=
  match c with
  | Call (HdName w) [] _ _ => exists a z, w = a ++ [z] /\ clen z = 1
  | _ => False
  end.
(** the last character of the printed text is ASCII *)
Definition ascii_end (s : str) : Prop := s = [] \/ exists a z, s = a ++ [z] /\ clen z = 1.

(** one part of a link as written: text without [\], [|] and [\]] (and not a line feed alone), the escapes
    [\n], [\|] and [\]], and in the last of three parts ([pipes]) further [|] *)
Inductive link_part (pipes : bool) : str -> Prop :=
| lp_nil : link_part pipes []
| lp_text s w : s <> [] -> s <> [10]%N -> (forall c, In c s -> ~ In c [92; 124; 93]%N) -> (forall c w', w = c :: w' -> In c [92; 124; 93]%N) ->
    link_part pipes w -> link_part pipes (s ++ w)
| lp_escape e w : In e [110; 124; 93]%N -> link_part pipes w -> link_part pipes (92%N :: e :: w)
| lp_pipe w : pipes = true -> link_part pipes w -> link_part pipes (124%N :: w).
(** [[[href]]], [[[href|label]]] or [[[href|label|title]]]; the href may be empty, and so may a label before a title *)
Definition link_parts_ok (parts : list str) : Prop :=
  match parts with
  | [h] => link_part false h
  | [h; l] => link_part false h /\ link_part false l /\ l <> []
  | [h; l; t] => link_part false h /\ link_part false l /\ link_part true t /\ t <> []
  | _ => False
  end.
(** what a part means: the escapes are replaced *)
Fixpoint link_decoded (s : str) : str :=
  match s with
  | [] => []
  | c :: w => match (c =? 92)%N, w with
              | true, e :: w' => (if (e =? 110)%N then 10%N else e) :: link_decoded w'
              | _, _ => c :: link_decoded w
              end
  end.
Definition link_arg (parts : list str) (k : nat) : str := link_decoded (nth k parts []).

Definition is_itext (i : item) : bool := match i with IText _ => true | _ => false end.
(** [items_ok after before l]: the pieces [l] in a row, after a tag, before a tag *)
Inductive item_ok (pe : penv) : item -> Prop :=
| okI_text s : item_ok pe (IText s)
| okI_call tr m p c : callx_ok pe c -> item_ok pe (ICall tr m p c)
| okI_dyn tr m p c xs hs : callx_ok pe c -> args_ok pe xs hs -> item_ok pe (IDyn tr m p c xs hs)
| okI_comment s : ~ occurs (lit "}}") s -> ~ ends_in [125]%N s -> (forall r, s <> lit "--" ++ r) -> item_ok pe (IComment s)
| okI_raw_comment s : ~ occurs (lit "--}}") s -> item_ok pe (IRawComment s)
| okI_escaped s : ~ occurs (lit "}}") s -> ~ ends_in [125; 126]%N s -> ~ begins_with 123%N s -> item_ok pe (IEscaped s)
| okI_link esc parts : link_parts_ok parts -> item_ok pe (ILink esc parts)
(* the content may itself contain tags, but no raw block: [{{{{] ends the content *)
| okI_raw c m s m' d : callx_ok pe c -> block_name_ok c -> items_ok pe true true d -> doc_writes Loose d s -> ~ occurs (lit "{{{{") s ->
    item_ok pe (IRaw c m s m')
| okI_block p c m body branches m' :
    callx_ok pe c -> block_name_ok c -> items_ok pe true true body ->
    Forall (fun b => (forall x, fst (fst b) = Some x -> callx_ok pe x) /\ items_ok pe true true (snd b)) branches ->
    (forall b, In b (removelast branches) -> ascii_end (doc_text (snd b))) ->
    item_ok pe (IBlock p c m body branches m')
with items_ok (pe : penv) : bool -> bool -> list item -> Prop :=
| okL_nil after before : items_ok pe after before []
| okL_text after before s l :
    plain s -> (after = true -> plain_after s) -> (before = true \/ l <> [] -> plain_before s) ->
    match l with i :: _ => is_itext i = false | [] => True end ->
    items_ok pe false before l -> items_ok pe after before (IText s :: l)
| okL_tag after before i l : is_itext i = false -> item_ok pe i -> items_ok pe true before l -> items_ok pe after before (i :: l).
Definition doc_ok (pe : penv) (d : list item) : Prop := items_ok pe false false d.

(** ** What the AST of a document carries *)
Definition hint_of (m : tildes) : trim_hint := mkHint (tl_before m) (tl_after m).
Definition link_is (src : str) (l : link) (esc : bool) (parts : list str) : Prop :=
  link_is_escaped src l = Some esc
  /\ link_str src l = Some (item_text (ILink esc parts))
  /\ (esc = true -> link_after_escape src l = Some (item_text (ILink false parts)))
  /\ link_href src l = Some (link_arg parts 0)
  /\ link_label src l = Some (link_arg parts 1)
  /\ link_title src l = Some (link_arg parts 2).

Inductive node_is (ly : layout) (pe : penv) (src : str) : node -> item -> Prop :=
| isN_text t s : text_str src t = Some s -> node_is ly pe src (NText t) (IText s)
| isN_call c tr m p x u :
    call_is ly pe src p false c x -> call_is_escaped src c = Some (negb tr) ->
    node_trim src (NStmt c) = Some (hint_of m) -> call_str src c = Some u -> item_writes ly (ICall tr m p x) u ->
    node_is ly pe src (NStmt c) (ICall tr m p x)
| isN_dyn c tr m p x xs hs u :
    dyn_is ly pe src p c x xs hs -> call_is_escaped src c = Some (negb tr) ->
    node_trim src (NStmt c) = Some (hint_of m) -> call_str src c = Some u -> item_writes ly (IDyn tr m p x xs hs) u ->
    node_is ly pe src (NStmt c) (IDyn tr m p x xs hs)
| isN_comment t s : text_str src (tb_text t) = Some s -> text_block_str src t = Some (item_text (IComment s)) ->
    node_is ly pe src (NComment t) (IComment s)
| isN_raw_comment t s : text_str src (tb_text t) = Some s -> text_block_str src t = Some (item_text (IRawComment s)) ->
    node_is ly pe src (NRawComment t) (IRawComment s)
| isN_escaped t s : text_str src (tb_text t) = Some s -> text_block_str src t = Some (item_text (IEscaped s)) ->
    node_is ly pe src (NRawStmt t) (IEscaped s)
| isN_link l esc parts : link_is src l esc parts -> node_is ly pe src (NLink l) (ILink esc parts)
| isN_raw b x m s m' t u :
    call_is ly pe src false false (b_call b) x -> b_raw b = true -> b_nodes b = [NText t] -> text_str src t = Some s -> b_conds b = [] ->
    node_trim src (NBlock b) = Some (hint_of m) -> block_trim_close src b = Some (hint_of m') ->
    block_str src b = Some u -> item_writes ly (IRaw x m s m') u ->
    node_is ly pe src (NBlock b) (IRaw x m s m')
| isN_block b p x m body branches m' u :
    call_is ly pe src p false (b_call b) x -> b_raw b = false ->
    Forall2 (node_is ly pe src) (b_nodes b) body -> branches_are ly pe src (b_conds b) branches m' ->
    node_trim src (NBlock b) = Some (hint_of m) -> block_trim_close src b = Some (hint_of m') ->
    block_str src b = Some u -> item_writes ly (IBlock p x m body branches m') u ->
    node_is ly pe src (NBlock b) (IBlock p x m body branches m')
(** the [else] branches in order; the last one ends with the closing tag of the block *)
with branches_are (ly : layout) (pe : penv) (src : str) : list node -> list (option callx * tildes * list item) -> tildes -> Prop :=
| isB_nil m' : branches_are ly pe src [] [] m'
| isB_cons b cond m body bs rest m' :
    match cond with
    | Some x => call_is ly pe src false true (b_call b) x
    | None => call_is_empty (b_call b) = true
    end -> b_raw b = false -> b_conds b = [] ->
    Forall2 (node_is ly pe src) (b_nodes b) body ->
    node_trim src (NBlock b) = Some (hint_of m) ->
    block_trim_close src b = Some (match rest with [] => hint_of m' | _ => mkHint false false end) ->
    branches_are ly pe src bs rest m' ->
    branches_are ly pe src (NBlock b :: bs) ((cond, m, body) :: rest) m'.
