(** * Parser: model of /repo/src/parser/{mod,block,call,path,string,link}.rs.
    No proofs in this file. *)
From Coq Require Import String.
From Verif Require Import Str Lexer Json Ast ErrInfo.
Open Scope nat_scope. Open Scope list_scope.

(** Why a Rust panic happens. *)
Inductive panic :=
| PanErrorInfo    (* slicing in error/source.rs while formatting a syntax error *)
| PanNumber       (* [parse().unwrap()] of a number literal, parser/call.rs:55 *)
| PanParents      (* u8 overflow of the parent count (overflow checks on), parser/path.rs:83 *)
| PanSlice        (* slicing the source through an AST span *)
| PanUnwrap.      (* any other [unwrap()] on None / Err *)

(** Platform facts the parser depends on: character display widths (unicode-width), serde_json's
    floating point number parsing, and whether integer overflow is checked (debug builds). *)
Record penv := mkPenv {
  pe_width : chr -> nat;
  pe_num : str -> option number;
  pe_checked : bool }.

(** What stays fixed during one parse. *)
Record pctx := mkPctx { px_env : penv; px_src : str; px_file : str }.

(** Lexer (rest of the token stream) and [ParseState] (src/parser/mod.rs:63-68). *)
Record pst := mkPst { p_toks : list token; p_line : nat; p_byte : nat }.

(** Result of a parsing function; the state is kept on errors because lint continues. *)
Inductive pres (S A : Type) :=
| POk (a : A) (s : S)
| PErr (e : syntax_error) (s : S)
| PPanic (p : panic)
| PFuel.
Arguments POk {S A}. Arguments PErr {S A}. Arguments PPanic {S A}. Arguments PFuel {S A}.

Definition pbind {S A B} (m : pres S A) (f : A -> S -> pres S B) : pres S B :=
  match m with
  | POk a s => f a s
  | PErr e s => PErr e s
  | PPanic p => PPanic p
  | PFuel => PFuel
  end.
Notation "'let!' ( x , s ) := m 'in' k" := (pbind m (fun x s => k))
  (at level 200, x name, s name, right associativity).

(** [Err(SyntaxError::K(ErrorInfo::from((source, state, notes)).into()))] *)
Definition perr_n {A} (cx : pctx) (k : serr) (notes : list str) (st : pst) : pres pst A :=
  match err_info (pe_width (px_env cx)) (px_file cx) (px_src cx) (p_line st) (p_byte st) notes with
  | Some info => PErr (mkSErr k info) st
  | None => PPanic PanErrorInfo
  end.
Definition perr {A} (cx : pctx) (k : serr) (st : pst) : pres pst A := perr_n cx k [] st.

(** Use of a slice of the source. *)
Definition pslice {A} (o : option str) (st : pst) (f : str -> pres pst A) : pres pst A :=
  match o with Some s => f s | None => PPanic PanSlice end.

(** [lexer.next()] *)
Definition pnext (st : pst) : option token * pst :=
  match p_toks st with
  | [] => (None, st)
  | t :: ts => (Some t, mkPst ts (p_line st) (p_byte st))
  end.
Definition set_byte (b : nat) (st : pst) : pst := mkPst (p_toks st) (p_line st) b.
Definition inc_line (st : pst) : pst := mkPst (p_toks st) (S (p_line st)) (p_byte st).
(** src/parser/mod.rs:97-99 [line_range] *)
Definition line_range (st : pst) : span := (p_line st, p_line st + 1).
Definition tspan (t : token) : span := (t_start t, t_end t).

(** ** src/parser/string.rs *)
Inductive lit_type := LDouble | LSingle | LArray.
(** src/parser/string.rs:20-27 [RawLiteral] *)
Record raw_literal := mkRaw { rl_newline : bool; rl_delim : bool; rl_type : lit_type }.
Definition has_escapes (r : raw_literal) : bool := rl_newline r || rl_delim r.
Definition delim_of (t : lit_type) : chr :=
  match t with LDouble => 34%N | LSingle => 39%N | LArray => 93%N end.
(** src/parser/string.rs:34-53 [into_owned] *)
Definition raw_owned (r : raw_literal) (v : str) : str :=
  let v := if rl_newline r then replace2 92%N 110%N 10%N v else v in
  if rl_delim r then replace2 92%N (delim_of (rl_type r)) (delim_of (rl_type r)) v else v.

Definition lit_token (ty : lit_type) (k : tkind) : option tquote :=
  match ty, k with
  | LDouble, TDouble q => Some q
  | LSingle, TSingle q => Some q
  | LArray, TArray q => Some q
  | _, _ => None
  end.
Definition lit_err (ty : lit_type) : serr :=
  match ty with
  | LDouble => STokenDoubleQuoteLiteral
  | LSingle => STokenSingleQuoteLiteral
  | LArray => STokenArrayLiteral
  end.

(** src/parser/string.rs:58-163 [parse], the loop *)
Fixpoint string_go (cx : pctx) (ty : lit_type) (start stop : nat) (newline delim : bool)
    (toks : list token) (line byte : nat) : pres pst (span * raw_literal) :=
  match toks with
  | [] => perr cx STokenRawLiteral (mkPst [] line byte)
  | t :: ts =>
      match lit_token ty (t_kind t) with
      | None => perr cx (lit_err ty) (mkPst ts line byte)
      | Some QNewline => perr cx SLiteralNewline (mkPst ts line byte)
      | Some QEscapedNewline => string_go cx ty start stop true delim ts line byte
      | Some QEscaped => string_go cx ty start stop newline true ts line byte
      | Some QEnd => POk ((start, stop), mkRaw newline delim ty) (mkPst ts line byte)
      | Some QText | Some QError =>
          string_go cx ty start (t_end t) newline delim ts line (t_end t - 1)
      end
  end.
Definition string_parse (cx : pctx) (ty : lit_type) (cur : span) (st : pst)
  : pres pst (span * raw_literal) :=
  string_go cx ty (snd cur) (snd cur) false false (p_toks st) (p_line st) (p_byte st).

(** src/parser/string.rs:166-180 [literal] *)
Definition string_literal (cx : pctx) (ty : lit_type) (cur : span) (st : pst) : pres pst (json * span) :=
  let! (r, st) := string_parse cx ty cur st in
  let '(sp, flags) := r in
  pslice (sl (px_src cx) sp) st (fun v =>
    POk (JStr (if has_escapes flags then raw_owned flags v else v), sp) st).

(** ** src/parser/path.rs *)
(** src/parser/path.rs:14-27 [is_path_component] *)
Definition is_path_component (k : tparam) : bool :=
  match k with
  | KThis | KThisDotSlash | KParentRef | KIdent | KLocalIdent | KPathDelim | KStartArray
  | KSingleQuote | KDoubleQuote => true
  | _ => false
  end.

(** src/parser/path.rs:44-63, the component kind *)
Definition comp_kind_of (k : tparam) : option comp_kind :=
  match k with
  | KThis => Some CThisKeyword
  | KThisDotSlash => Some CThisDotSlash
  | KParentRef => Some CParent
  | KIdent => Some CIdentifier
  | KLocalIdent => Some CLocal
  | KPathDelim => Some CDelimiter
  | KSingleQuote => Some (CRaw RawSingle)
  | KDoubleQuote => Some (CRaw RawDouble)
  | KStartArray => Some (CRaw RawArray)
  | _ => None
  end.

(** src/parser/path.rs:29-70 [to_component] *)
Definition to_component (cx : pctx) (k : tparam) (sp : span) (raw : option raw_literal) (st : pst)
  : pres pst component :=
  let mk (v : option str) :=
    match comp_kind_of k with
    | Some kind => POk (mkComp kind sp v) st
    | None => perr cx SComponentType st
    end in
  match raw with
  | Some r => if has_escapes r then pslice (sl (px_src cx) sp) st (fun v => mk (Some (raw_owned r v)))
              else mk None
  | None => mk None
  end.

(** src/parser/path.rs:72-91 [parents]: the loop; u8 arithmetic, [None] = overflow panic *)
Fixpoint parents_go (checked : bool) (n : N) (toks : list token)
  : option (N * option token * list token) :=
  match toks with
  | [] => Some (n, None, [])
  | t :: ts =>
      match t_kind t with
      | TParam KParentRef =>
          if (n =? 255)%N then
            if checked then None else parents_go checked 0%N ts
          else parents_go checked (n + 1)%N ts
      | _ => Some (n, Some t, ts)
      end
  end.

(** The raw identifiers of [components] (src/parser/path.rs:141-182): quote/bracket tokens are followed by a
    raw literal, other tokens keep their span. *)
Definition lit_of_param (k : tparam) : option lit_type :=
  match k with
  | KSingleQuote => Some LSingle
  | KDoubleQuote => Some LDouble
  | KStartArray => Some LArray
  | _ => None
  end.

(** src/parser/path.rs:93-228 [components] *)
Fixpoint components (fuel : nat) (cx : pctx) (p : path) (wants_delim : bool) (st : pst)
  : pres pst (path * option token) :=
  match fuel with
  | 0 => PFuel
  | S fuel =>
      let (ot, st) := pnext st in
      match ot with
      | None => POk (p, None) st
      | Some t =>
          if is_newline (t_kind t) then
            let st := inc_line st in
            let (ot', st) := pnext st in POk (p, ot') st
          else
            match t_kind t with
            | TParam k =>
                let st := set_byte (t_start t) st in
                match k with
                | KEnd => POk (p, Some t) st
                | _ =>
                    if is_path_component k then
                      let p := path_set_end (t_end t) p in
                      match k with
                      | KThis | KThisDotSlash => perr cx SUnexpectedPathExplicitThis st
                      | KParentRef => perr cx SUnexpectedPathParent st
                      | KLocalIdent => perr cx SUnexpectedPathLocal st
                      | _ =>
                          let! (r, st) :=
                            match lit_of_param k with
                            | Some ty =>
                                let! (r, st) := string_parse cx ty (tspan t) st in
                                POk (fst r, Some (snd r)) st
                            | None => POk (tspan t, None) st
                            end in
                          let '(sp, raw) := r in
                          match k with
                          | KPathDelim =>
                              if wants_delim then components fuel cx p false st
                              else perr cx SUnexpectedPathDelimiter (set_byte (fst sp) st)
                          | _ =>
                              if wants_delim then perr cx SExpectedPathDelimiter (set_byte (fst sp) st)
                              else
                                let! (c, st) := to_component cx k sp raw st in
                                components fuel cx (path_add c p) true st
                          end
                      end
                    else POk (p, Some t) st
                end
            | _ => POk (p, Some t) st
            end
      end
  end.

(** src/parser/path.rs:260-318, the loop of [parse]: skip tokens that are no path components (!) *)
Fixpoint path_loop (cx : pctx) (p : path) (next : option token) (toks : list token) (line byte : nat)
  : pres pst (option path * option token) :=
  match next with
  | None => POk (None, None) (mkPst toks line byte)
  | Some t =>
      match t_kind t with
      | TParam k =>
          let st := mkPst toks line (t_start t) in
          if is_path_component k then
            let p := path_set_end (t_end t) p in
            let! (c, st) := to_component cx k (tspan t) None st in
            match comp_is_root (px_src cx) c with
            | None => PPanic PanSlice
            | Some root =>
                let p := if path_is_empty p && root then path_set_root true p else p in
                let p := if comp_is_explicit c then path_set_explicit true p else p in
                if comp_is_local c && (0 <? pa_parents p)%N then perr cx SUnexpectedPathParentWithLocal st
                else if comp_is_explicit c && (0 <? pa_parents p)%N then
                       perr cx SUnexpectedPathParentWithExplicit st
                else
                  let wants := negb (comp_is_dot_slash c) in
                  let! (r, st) := components (S (length toks)) cx (path_add c p) wants st in
                  let '(p, next) := r in
                  if path_is_empty p then perr cx SEmptyPath st
                  else POk (Some p, next) st
            end
          else
            match toks with
            | [] => POk (None, None) (mkPst [] line (t_start t))
            | t' :: ts => path_loop cx p (Some t') ts line (t_start t)
            end
      | _ => perr cx STokenParameterPath (mkPst toks line byte)
      end
  end.

(** src/parser/path.rs:230-321 [parse] *)
Definition path_parse (cx : pctx) (k : tparam) (t : token) (st : pst)
  : pres pst (option path * option token) :=
  let p := path_new (tspan t) (line_range st) in
  pslice (sl (px_src cx) (tspan t)) st (fun initial =>
    match k with
    | KPathDelim =>
        if streq initial [47%N] then
          let (next, st) := pnext st in
          path_loop cx (path_set_absolute true p) next (p_toks st) (p_line st) (p_byte st)
        else perr cx SUnexpectedPathDelimiter st
    | KParentRef =>
        match parents_go (pe_checked (px_env cx)) 1%N (p_toks st) with
        | None => PPanic PanParents
        | Some (n, next, ts) => path_loop cx (path_set_parents n p) next ts (p_line st) (p_byte st)
        end
    | _ => path_loop cx p (Some t) (p_toks st) (p_line st) (p_byte st)
    end).

(** src/parser/path.rs:323-350 [from_str], used by [Render::evaluate]; the result [None] of lexing
    (out of fuel) never happens *)
Definition path_from_str (env : penv) (s : str) : pres pst (option path) :=
  match lex_from MParam s with
  | None => PFuel
  | Some toks =>
      let cx := mkPctx env s (lit "unknown") in
      let (ot, st) := pnext (mkPst toks 0 0) in
      match ot with
      | None => POk None st
      | Some t =>
          match t_kind t with
          | TParam k =>
              let! (r, st) := path_parse cx k t st in POk (fst r) st
          | _ => perr cx STokenParameterPath st
          end
      end
  end.

(** ** src/parser/call.rs *)
(** src/parser/call.rs:36-39 [CallContext] *)
Inductive call_ctx := CtxCall | CtxSub.

(** src/parser/call.rs:42-100 [json_literal]: the value and the outer span *)
Definition json_literal (cx : pctx) (k : tparam) (t : token) (st : pst) : pres pst (json * span) :=
  match k with
  | KNull => POk (JNull, tspan t) st
  | KTrue => POk (JBool true, tspan t) st
  | KFalse => POk (JBool false, tspan t) st
  | KNumber =>
      pslice (sl (px_src cx) (tspan t)) st (fun s =>
        match parse_number (pe_num (px_env cx)) s with
        | Some n => POk (JNum n, tspan t) st
        | None => PPanic PanNumber
        end)
  | _ =>
      match lit_of_param k with
      | Some ty =>
          let! (r, st) := string_literal cx ty (tspan t) st in
          POk (fst r, (t_start t, snd (snd r) + 1)) st
      | None => perr cx STokenJsonLiteral st
      end
  end.

Definition opt_next (st : pst) : pres pst (option token) :=
  let (ot, st) := pnext st in POk ot st.

(** The five mutually recursive functions of src/parser/call.rs; each returns the updated call. *)
Fixpoint sub_expr (fuel : nat) (cx : pctx) (open : span) (st : pst) {struct fuel}
  : pres pst (call * option token) :=
  (* src/parser/call.rs:492-515 [sub_expr] *)
  match fuel with
  | 0 => PFuel
  | S fuel =>
      let st := set_byte (snd open) st in
      let c := call_new open (line_range st) in
      let (next, st) := pnext st in
      let! (r, st) := call_target fuel cx c next CtxSub st in
      let '(c, next) := r in
      let! (r, st) := arguments fuel cx c next CtxSub st in
      let '(c, next) := r in
      if call_is_closed c then POk (call_lines_end (p_line st) c, next) st
      else perr cx SSubExpressionNotTerminated st
  end
with value_ (fuel : nat) (cx : pctx) (k : tparam) (t : token) (st : pst) {struct fuel}
  : pres pst (param * option token) :=
  (* src/parser/call.rs:102-159 [value] *)
  match fuel with
  | 0 => PFuel
  | S fuel =>
      match k with
      | KThis | KPathDelim | KThisDotSlash | KIdent | KLocalIdent | KParentRef =>
          let! (r, st) := path_parse cx k t st in
          let '(p, next) := r in
          match p with
          | Some p => POk (VPath p, next) st
          | None => perr cx SExpectedPath st
          end
      | KStartSub =>
          let! (r, st) := sub_expr fuel cx (tspan t) st in
          let '(c, next) := r in
          POk (VSub c, next) st
      | KDoubleQuote | KSingleQuote | KStartArray | KNumber | KTrue | KFalse | KNull =>
          let line := line_range st in
          let! (r, st) := json_literal cx k t st in
          let '(v, sp) := r in
          let! (next, st) := opt_next st in
          POk (VJson v sp line, next) st
      | _ => perr cx STokenParameter st
      end
  end
with key_value (fuel : nat) (cx : pctx) (c : call) (t : token) (ctx : call_ctx) (st : pst) {struct fuel}
  : pres pst (call * option token) :=
  (* src/parser/call.rs:161-241 [key_value] *)
  match fuel with
  | 0 => PFuel
  | S fuel =>
      pslice (slice (px_src cx) (t_start t) (t_end t - 1)) st (fun key =>
        let (ot, st) := pnext st in
        let! (r, st) :=
          match ot with
          | None => POk (c, None) st
          | Some t =>
              match t_kind t with
              | TParam k =>
                  let! (r, st) := value_ fuel cx k t st in
                  let '(v, next) := r in
                  POk (call_add_parameter key v c, next) st
              | _ => perr cx STokenParameter st
              end
          end in
        let '(c, next) := r in
        kv_loop fuel cx c next ctx st)
  end
with kv_loop (fuel : nat) (cx : pctx) (c : call) (next : option token) (ctx : call_ctx) (st : pst)
  {struct fuel} : pres pst (call * option token) :=
  (* src/parser/call.rs:191-241, the loop reading further key/value pairs *)
  match fuel with
  | 0 => PFuel
  | S fuel =>
      match next with
      | None => POk (c, None) st
      | Some t =>
          match t_kind t with
          | TParam k =>
              match k with
              | KWhiteSpace | KNewline =>
                  let st := match k with KNewline => inc_line st | _ => st end in
                  let (next, st) := pnext st in
                  kv_loop fuel cx c next ctx st
              | KHashKey => key_value fuel cx c t ctx st
              | KEnd => POk (call_exit (tspan t) c, None) st
              | KEndSub =>
                  match ctx with
                  | CtxSub =>
                      let (next, st) := pnext st in POk (call_exit (tspan t) c, next) st
                  | CtxCall => perr cx SSubExprNotOpen st
                  end
              | _ => perr cx STokenHashKeyValue st
              end
          | _ => perr cx STokenParameter st
          end
      end
  end
with arguments (fuel : nat) (cx : pctx) (c : call) (next : option token) (ctx : call_ctx) (st : pst)
  {struct fuel} : pres pst (call * option token) :=
  (* src/parser/call.rs:243-381 [arguments] *)
  match fuel with
  | 0 => PFuel
  | S fuel =>
      match next with
      | None => POk (c, None) st
      | Some t =>
          match t_kind t with
          | TParam k =>
              match k with
              | KWhiteSpace | KNewline =>
                  let st := match k with KNewline => inc_line st | _ => st end in
                  let (next, st) := pnext st in
                  arguments fuel cx c next ctx st
              | KPartial => perr cx SPartialPosition st
              | KElse => POk (c, None) st
              | KThis | KPathDelim | KThisDotSlash | KIdent | KLocalIdent | KStartArray | KParentRef
              | KStartSub | KDoubleQuote | KSingleQuote | KNumber | KTrue | KFalse | KNull =>
                  let! (r, st) := value_ fuel cx k t st in
                  let '(v, next) := r in
                  arguments fuel cx (call_add_argument v c) next ctx st
              | KHashKey => key_value fuel cx c t ctx st
              | KEndSub =>
                  match ctx with
                  | CtxSub =>
                      let (next, st) := pnext st in POk (call_exit (tspan t) c, next) st
                  | CtxCall => perr cx SSubExprNotOpen st
                  end
              | KError => perr cx STokenError st
              | KEnd =>
                  POk (match ctx with CtxSub => c | CtxCall => call_exit (tspan t) c end, None) st
              end
          | _ => perr cx STokenParameter st
          end
      end
  end
with call_target (fuel : nat) (cx : pctx) (c : call) (next : option token) (ctx : call_ctx) (st : pst)
  {struct fuel} : pres pst (call * option token) :=
  (* src/parser/call.rs:384-461 [target] *)
  match fuel with
  | 0 => PFuel
  | S fuel =>
      match next with
      | None => POk (c, None) st
      | Some t =>
          match t_kind t with
          | TParam k =>
              match k with
              | KWhiteSpace | KNewline =>
                  let st := match k with KNewline => inc_line st | _ => st end in
                  let (next, st) := pnext st in
                  call_target fuel cx c next ctx st
              | KElse => perr cx SElseNotAllowed st
              | KThis | KThisDotSlash | KIdent | KLocalIdent | KParentRef | KPathDelim =>
                  let! (r, st) := path_parse cx k t st in
                  let '(p, next) := r in
                  POk (match p with Some p => call_set_target (TPath p) c | None => c end, next) st
              | KStartSub =>
                  match ctx with
                  | CtxSub => perr cx SSubExprTargetNotAllowed st
                  | CtxCall =>
                      let! (r, st) := sub_expr fuel cx (tspan t) st in
                      let '(sub, next) := r in
                      POk (call_set_target (TSub sub) c, next) st
                  end
              | KEnd =>
                  match call_has_target (px_src cx) c with
                  | None => PPanic PanSlice
                  | Some has =>
                      if negb has && negb (c_conditional c) then perr cx SExpectedIdentifier st
                      else POk (match ctx with CtxSub => c | CtxCall => call_exit (tspan t) c end, None) st
                  end
              | _ => perr cx STokenCallTarget st
              end
          | _ => perr cx STokenParameter st
          end
      end
  end.

(** src/parser/call.rs:464-490 [flags]; infallible *)
Fixpoint flags_go (c : call) (next : option token) (toks : list token) (line byte : nat)
  : call * option token * pst :=
  match next with
  | None => (c, None, mkPst toks line byte)
  | Some t =>
      let stop := (c, Some t, mkPst toks line byte) in
      match t_kind t with
      | TParam k =>
          match k with
          | KWhiteSpace | KNewline =>
              let line := match k with KNewline => S line | _ => line end in
              match toks with
              | [] => (c, None, mkPst [] line byte)
              | t' :: ts => flags_go c (Some t') ts line byte
              end
          | KPartial =>
              let (n, st) := pnext (mkPst toks line byte) in (call_set_partial true c, n, st)
          | KElse =>
              let (n, st) := pnext (mkPst toks line byte) in (call_set_conditional true c, n, st)
          | _ => stop
          end
      | _ => stop
      end
  end.

(** Enough fuel for the recursive functions: see [ParserFacts.call_fuel_enough]. *)
Definition call_fuel (st : pst) : nat := 4 * length (p_toks st) + 8.

(** src/parser/call.rs:517-550 [parse] (the parse context argument is unused in the code) *)
Definition call_parse (cx : pctx) (open : span) (st : pst) : pres pst call :=
  let st := set_byte (snd open) st in
  let c := call_new open (line_range st) in
  let (next, st) := pnext st in
  let '(c, next, st) := flags_go c next (p_toks st) (p_line st) (p_byte st) in
  if c_partial c && c_conditional c then perr cx SMixedPartialConditional st
  else
    let! (r, st) := call_target (call_fuel st) cx c next CtxCall st in
    let '(c, next) := r in
    let! (r, st) := arguments (call_fuel st) cx c next CtxCall st in
    let '(c, _) := r in
    POk (call_lines_end (p_line st) c) st.

(** ** src/parser/link.rs *)
(** src/parser/link.rs:13-18 [EscapeFlags] *)
Record eflags := mkEf { ef_newline : bool; ef_pipe : bool; ef_bracket : bool }.
Definition ef_none := mkEf false false false.
Definition ef_any (f : eflags) : bool := ef_newline f || ef_pipe f || ef_bracket f.
(** src/parser/link.rs:25-37 [into_owned] *)
Definition ef_owned (f : eflags) (v : str) : str :=
  let v := if ef_newline f then replace2 92%N 110%N 10%N v else v in
  let v := if ef_pipe f then replace2 92%N 124%N 124%N v else v in
  if ef_bracket f then replace2 92%N 93%N 93%N v else v.

Inductive value_type := VLabel | VTitle.

(** src/parser/link.rs:47-68 [assign_if_escaped]; [None] = slice panic *)
Definition assign_if_escaped (src : str) (l : link) (f : eflags) (sp : span) (vt : value_type) : option link :=
  if ef_any f then
    match vt with
    | VLabel => match slice src (fst (lk_label_span l)) (fst sp) with
                | Some v => Some (link_set_label (ef_owned f v) l)
                | None => None
                end
    | VTitle => match slice src (fst (lk_title_span l)) (fst sp) with
                | Some v => Some (link_set_title (ef_owned f v) l)
                | None => None
                end
    end
  else Some l.

(** src/parser/link.rs:71-162 [value] *)
Fixpoint link_value (cx : pctx) (l : link) (vt : value_type) (f : eflags)
    (toks : list token) (line byte : nat) : pres pst link :=
  match toks with
  | [] => POk l (mkPst [] line byte)
  | t :: ts =>
      match t_kind t with
      | TLink k =>
          let byte := t_end t - 1 in
          match k with
          | LNewline => link_value cx l vt f ts (S line) byte
          | LText =>
              let l := match vt with
                       | VLabel => link_set_label_span (fst (lk_label_span l), t_end t) l
                       | VTitle => link_set_title_span (fst (lk_title_span l), t_end t) l
                       end in
              link_value cx l vt f ts line byte
          | LPipe =>
              match vt with
              | VLabel =>
                  let l := link_set_label_span (fst (lk_label_span l), t_start t) l in
                  match assign_if_escaped (px_src cx) l f (tspan t) vt with
                  | None => PPanic PanSlice
                  | Some l =>
                      let l := link_set_title_span (t_end t, snd (lk_title_span l)) l in
                      link_value cx l VTitle ef_none ts line byte
                  end
              | VTitle =>
                  link_value cx (link_set_title_span (fst (lk_title_span l), t_end t) l) vt f ts line byte
              end
          | LEscapedNewline => link_value cx l vt (mkEf true (ef_pipe f) (ef_bracket f)) ts line byte
          | LEscapedPipe => link_value cx l vt (mkEf (ef_newline f) true (ef_bracket f)) ts line byte
          | LEscaped => link_value cx l vt (mkEf (ef_newline f) (ef_pipe f) true) ts line byte
          | LEnd =>
              match assign_if_escaped (px_src cx) l f (tspan t) vt with
              | None => PPanic PanSlice
              | Some l => POk (link_set_close (tspan t) l) (mkPst ts line byte)
              end
          | LError => perr cx STokenLink (mkPst ts line byte)
          end
      | _ => perr cx STokenLink (mkPst ts line byte)
      end
  end.

(** src/parser/link.rs:164-243 [href] *)
Fixpoint link_href_go (cx : pctx) (l : link) (f : eflags) (toks : list token) (line byte : nat)
  : pres pst link :=
  let assign (l : link) (t : token) :=
    if ef_any f then
      match slice (px_src cx) (snd (lk_open l)) (t_start t) with
      | Some v => Some (link_set_href (ef_owned f v) l)
      | None => None
      end
    else Some l in
  match toks with
  | [] => POk l (mkPst [] line byte)
  | t :: ts =>
      match t_kind t with
      | TLink k =>
          let byte := t_end t - 1 in
          match k with
          | LNewline => POk l (mkPst ts (S line) byte)
          | LText =>
              link_href_go cx (link_set_href_span (fst (lk_href_span l), t_end t) l) f ts line byte
          | LPipe =>
              match assign l t with
              | None => PPanic PanSlice
              | Some l =>
                  let l := link_set_label_span (t_end t, snd (lk_label_span l)) l in
                  link_value cx l VLabel ef_none ts line byte
              end
          | LEscapedNewline => link_href_go cx l (mkEf true (ef_pipe f) (ef_bracket f)) ts line byte
          | LEscapedPipe => link_href_go cx l (mkEf (ef_newline f) true (ef_bracket f)) ts line byte
          | LEscaped => link_href_go cx l (mkEf (ef_newline f) (ef_pipe f) true) ts line byte
          | LEnd =>
              match assign l t with
              | None => PPanic PanSlice
              | Some l => POk (link_set_close (tspan t) l) (mkPst ts line byte)
              end
          | LError => perr cx STokenLink (mkPst ts line byte)
          end
      | _ => perr cx STokenLink (mkPst ts line byte)
      end
  end.

(** src/parser/link.rs:245-264 [parse] *)
Definition link_parse (cx : pctx) (open : span) (st : pst) : pres pst link :=
  let st := set_byte (snd open) st in
  let! (l, st) := link_href_go cx (link_new open (line_range st)) ef_none (p_toks st) (p_line st) (p_byte st) in
  match lk_close l with
  | None => perr cx SLinkNotTerminated st
  | Some _ => POk (link_set_line_end (p_line st) l) st
  end.

(** ** src/parser/block.rs *)
(** src/parser/block.rs:15-35 [until]; [stop] is the closure [end] *)
Fixpoint until (stop : tkind -> bool) (sp : span) (toks : list token) (line byte : nat)
  : span * option token * pst :=
  match toks with
  | [] => (sp, None, mkPst [] line byte)
  | t :: ts =>
      let line := if is_newline (t_kind t) then S line else line in
      if stop (t_kind t) then (sp, Some t, mkPst ts line byte)
      else until stop (fst sp, t_end t) ts line (t_end t - 1)
  end.

(** src/parser/block.rs:38-58 [text_until], before wrapping *)
Definition text_until (stop : tkind -> bool) (open : span) (st : pst) : option (text_block * token) * pst :=
  let lr := line_range st in
  let '(sp, next, st) := until stop (snd open, snd open) (p_toks st) (p_line st) (p_byte st) in
  match next with
  | None => (None, st)
  | Some close =>
      (Some (mkTextBlock (mkText sp (fst lr, p_line st + 1)) open (tspan close), close), st)
  end.

Definition is_end_raw_block (k : tkind) : bool := match k with TBlock BEndRawBlock => true | _ => false end.
Definition is_end_raw_comment (k : tkind) : bool := match k with TRawComment PEnd => true | _ => false end.
Definition is_end_raw_statement (k : tkind) : bool := match k with TRawStatement PEnd => true | _ => false end.
Definition is_end_comment (k : tkind) : bool := match k with TComment PEnd => true | _ => false end.

(** src/parser/block.rs:61-148 [raw] *)
Definition raw_block (cx : pctx) (open : span) (st : pst) : pres pst node :=
  let b := block_new open true (line_range st) in
  let! (c, st) := call_parse cx open st in
  match c_close c with
  | None => perr cx SRawBlockOpenNotTerminated st
  | Some end_span =>
      pslice (target_str (px_src cx) (c_target c)) st (fun open_name =>
        let b := block_set_call c b in
        let (r, st) := text_until is_end_raw_block end_span st in
        match r with
        | None => perr cx SRawBlockNotTerminated st
        | Some (tb, t) =>
            let b := block_push (NText (tb_text tb)) b in
            let! (e, st) := call_parse cx (tspan t) st in
            match c_close e with
            | None => perr cx SRawBlockNotTerminated st
            | Some cl =>
                let b := block_exit (fst (c_open e), snd cl) b in
                pslice (target_str (px_src cx) (c_target e)) st (fun end_name =>
                  if streq open_name end_name then
                    POk (NBlock (block_lines_end (p_line st) b)) st
                  else perr_n cx STagNameMismatch [lit "opening name is '" ++ open_name ++ lit "'"] st)
            end
        end)
  end.

(** src/parser/block.rs:151-175 [raw_comment] *)
Definition raw_comment (cx : pctx) (open : span) (st : pst) : pres pst node :=
  let (r, st) := text_until is_end_raw_comment open st in
  match r with Some (tb, _) => POk (NRawComment tb) st | None => perr cx SRawCommentNotTerminated st end.
(** src/parser/block.rs:178-202 [raw_statement] *)
Definition raw_statement (cx : pctx) (open : span) (st : pst) : pres pst node :=
  let (r, st) := text_until is_end_raw_statement open st in
  match r with Some (tb, _) => POk (NRawStmt tb) st | None => perr cx SRawStatementNotTerminated st end.
(** src/parser/block.rs:205-229 [comment] *)
Definition comment (cx : pctx) (open : span) (st : pst) : pres pst node :=
  let (r, st) := text_until is_end_comment open st in
  match r with Some (tb, _) => POk (NComment tb) st | None => perr cx SCommentNotTerminated st end.
(** src/parser/block.rs:232-241 [scope] *)
Definition scope (cx : pctx) (open : span) (st : pst) : pres pst block :=
  let b := block_new open false (line_range st) in
  let! (c, st) := call_parse cx open st in
  POk (block_set_call c b) st.

(** ** src/parser/mod.rs *)
(** src/parser/mod.rs:123-130 the mutable part of [Parser]: lexer+state, block stack (top first),
    pending token *)
Record fstate := mkF { f_p : pst; f_stack : list (str * block); f_next : option token }.

Definition lift {A} (m : pres pst A) (stk : list (str * block)) (nx : option token) : pres fstate A :=
  match m with
  | POk a s => POk a (mkF s stk nx)
  | PErr e s => PErr e (mkF s stk nx)
  | PPanic p => PPanic p
  | PFuel => PFuel
  end.

(** src/parser/mod.rs:176-183 [token] *)
Definition ftoken (fs : fstate) : option token * fstate :=
  match f_next fs with
  | Some t => (Some t, mkF (f_p fs) (f_stack fs) None)
  | None => let (t, p) := pnext (f_p fs) in (t, mkF p (f_stack fs) None)
  end.

(** src/parser/mod.rs:288-320, attach a child node to the innermost open block *)
Definition attach (n : node) (line : span) (b : block) : block :=
  match n with
  | NStmt c =>
      if c_conditional c then
        block_add_condition (block_set_call c (block_new (c_open c) false line)) b
      else block_push n b
  | _ => block_push n b
  end.

(** src/parser/mod.rs:189-430 [advance] and its block loop (281-329) *)
Fixpoint advance (fuel : nat) (cx : pctx) (t : token) (fs : fstate) {struct fuel}
  : pres fstate (option node) :=
  match fuel with
  | 0 => PFuel
  | S fuel =>
      let k := t_kind t in
      let st := if is_newline k then inc_line (f_p fs) else f_p fs in
      let stk := f_stack fs in
      let nx := f_next fs in
      if is_text k then
        (* 195-211 normalize consecutive text *)
        let lr := line_range st in
        let '(sp, next, st) := until (fun k => negb (is_text k)) (tspan t) (p_toks st) (p_line st) (p_byte st) in
        POk (Some (NText (mkText sp (fst lr, p_line st + 1)))) (mkF st stk next)
      else
        match k with
        | TBlock BStartRawBlock =>
            let! (n, fs) := lift (raw_block cx (tspan t) st) stk nx in POk (Some n) fs
        | TBlock BStartRawComment =>
            let! (n, fs) := lift (raw_comment cx (tspan t) st) stk nx in POk (Some n) fs
        | TBlock BStartRawStatement =>
            let! (n, fs) := lift (raw_statement cx (tspan t) st) stk nx in POk (Some n) fs
        | TBlock BStartComment =>
            let! (n, fs) := lift (comment cx (tspan t) st) stk nx in POk (Some n) fs
        | TBlock BStartBlockScope =>
            let! (b, fs) := lift (scope cx (tspan t) st) stk nx in
            match block_name (px_src cx) b with
            | None => PPanic PanSlice
            | Some None =>
                lift (perr cx SBlockName (set_byte (fst (target_span (c_target (b_call b)))) (f_p fs))) stk nx
            | Some (Some name) =>
                match c_target (b_call b) with
                | TSub _ =>
                    if c_partial (b_call b)
                    then block_loop fuel cx (mkF (f_p fs) ((name, b) :: stk) nx)
                    else lift (perr cx SBlockTargetSubExpr (f_p fs)) stk nx
                | TPath _ => block_loop fuel cx (mkF (f_p fs) ((name, b) :: stk) nx)
                end
            end
        | TBlock BEndBlockScope =>
            let! (temp, fs) := lift (scope cx (tspan t) st) stk nx in
            match block_name (px_src cx) temp with
            | None => PPanic PanSlice
            | Some close_name =>
                match stk with
                | [] =>
                    let notes := match close_name with
                                 | Some c => [lit "perhaps open the block '" ++ c ++ lit "'"]
                                 | None => []
                                 end in
                    lift (perr_n cx SBlockNotOpen notes (set_byte (t_start t) (f_p fs))) stk nx
                | (open_name, b) :: stk' =>
                    match close_name with
                    | Some close_name =>
                        if streq open_name close_name then
                          let sp := if call_is_closed (b_call temp)
                                    then (t_start t, snd (call_span (b_call temp)))
                                    else tspan t in
                          let b := block_lines_end (p_line (f_p fs)) (block_exit sp b) in
                          POk (Some (NBlock b)) (mkF (f_p fs) stk' nx)
                        else
                          lift (perr_n cx STagNameMismatch [lit "opening name is '" ++ open_name ++ lit "'"] (f_p fs))
                               stk' nx
                    | None => lift (perr cx SExpectedIdentifier (f_p fs)) stk' nx
                    end
                end
            end
        | TBlock BStartStatement =>
            let! (c, fs) := lift (call_parse cx (tspan t) st) stk nx in POk (Some (NStmt c)) fs
        | TBlock BStartLink =>
            let! (l, fs) := lift (link_parse cx (tspan t) st) stk nx in POk (Some (NLink l)) fs
        | _ => POk None (mkF st stk nx)
        end
  end
with block_loop (fuel : nat) (cx : pctx) (fs : fstate) {struct fuel} : pres fstate (option node) :=
  match fuel with
  | 0 => PFuel
  | S fuel =>
      let (ot, fs) := ftoken fs in
      match ot with
      | None => POk None fs
      | Some t =>
          let! (n, fs) := advance fuel cx t fs in
          match n with
          | None => POk None fs
          | Some node =>
              match f_stack fs with
              | [] => POk (Some node) fs
              | (name, b) :: stk =>
                  block_loop fuel cx
                    (mkF (f_p fs) ((name, attach node (line_range (f_p fs)) b) :: stk) (f_next fs))
              end
          end
      end
  end.

(** Enough fuel for [advance]: see [ParserFacts.advance_fuel_enough]. *)
Definition adv_fuel (fs : fstate) : nat := 2 * length (p_toks (f_p fs)) + 4.

(** src/parser/mod.rs:157-164 [parse] with the non-lint [next] (433-462): the list of top-level nodes *)
Fixpoint parse_loop (fuel : nat) (cx : pctx) (acc : list node) (fs : fstate) : pres fstate (list node) :=
  match fuel with
  | 0 => PFuel
  | S fuel =>
      let (ot, fs) := ftoken fs in
      match ot with
      | None => POk acc fs
      | Some t =>
          let! (n, fs) := advance (adv_fuel fs) cx t fs in
          match n with
          | None => POk acc fs
          | Some node => parse_loop fuel cx (acc ++ [node]) fs
          end
      end
  end.

(** src/parser/mod.rs:28-37 [ParserOptions] *)
Record popts := mkOpts { po_file : str; po_line : nat; po_byte : nat }.

(** src/parser/mod.rs:136-147 [Parser::new] followed by [parse]; src/template.rs:39-66 [Template::compile] *)
Definition compile (env : penv) (o : popts) (src : str) : pres fstate node :=
  match lex src with
  | None => PFuel
  | Some toks =>
      let cx := mkPctx env src (po_file o) in
      let! (ns, fs) := parse_loop (S (length toks)) cx [] (mkF (mkPst toks (po_line o) (po_byte o)) [] None) in
      POk (NDoc ns) fs
  end.

(** src/lexer.rs:480-488 [until_mode]: skip to the next document-mode token *)
Fixpoint until_mode (toks : list token) : option token * list token :=
  match toks with
  | [] => (None, [])
  | t :: ts => match t_kind t with TBlock _ => (Some t, ts) | _ => until_mode ts end
  end.

(** src/registry.rs [lint]: iterate [next] (src/parser/mod.rs:433-462) with an error list *)
Fixpoint lint_loop (fuel : nat) (cx : pctx) (errs : list syntax_error) (fs : fstate)
  : pres fstate (list syntax_error) :=
  match fuel with
  | 0 => PFuel
  | S fuel =>
      let (ot, fs) := ftoken fs in
      match ot with
      | None => POk errs fs
      | Some t =>
          match advance (adv_fuel fs) cx t fs with
          | POk None fs => POk errs fs
          | POk (Some _) fs => lint_loop fuel cx errs fs
          | PErr e fs =>
              let (nx, ts) := until_mode (p_toks (f_p fs)) in
              lint_loop fuel cx (errs ++ [e])
                (mkF (mkPst ts (p_line (f_p fs)) (p_byte (f_p fs))) (f_stack fs) nx)
          | PPanic p => PPanic p
          | PFuel => PFuel
          end
      end
  end.
Definition lint (env : penv) (name : str) (src : str) : pres fstate (list syntax_error) :=
  match lex src with
  | None => PFuel
  | Some toks =>
      lint_loop (S (length toks)) (mkPctx env src name) [] (mkF (mkPst toks 0 0) [] None)
  end.
