(** * Spec_Bad: template sources with mistakes in them, and the errors they must be reported with.
    [bad] describes one tag with one mistake, independently of the parser; [verdict] says which errors a source made
    of good tags, text and bad tags has, in order.  No proofs in this file. *)
From Coq Require Import String.
From Verif Require Import Str Lexer Json Ast ErrInfo Parser Spec_Lexer Spec_Ast Spec_Source.
Open Scope nat_scope. Open Scope list_scope.

(** ** The end of a tag after the mistake *)
(** characters that mean nothing inside a tag: ! # % & * , ; < ] ^ ` { | and carriage return *)
Definition stray_chars : list chr := [33; 35; 37; 38; 42; 44; 59; 60; 93; 94; 96; 123; 124; 13]%N.
Definition closes (z : str) : Prop := exists b r, z = tilde b ++ lit r /\ In r ["}}"; "}}}"; "}}}}"]%string.
(** anything without quotes, opening brackets, [}] and [~] *)
Definition junk (j : str) : Prop := forall c, In c j -> ~ In c [34; 39; 91; 125; 126]%N.
Definition tag_rest (s : str) : Prop := exists j z, s = j ++ z /\ junk j /\ closes z.
Definition starts_in (l : list chr) (s : str) : Prop := exists c r, s = c :: r /\ In c l.
Definition blank_chars : list chr := [32; 9; 10]%N.
(** the word before ends here: white space, the closing delimiter, [)], [>] or a stray character *)
Definition ended (s : str) : Prop := starts_in (blank_chars ++ [125; 126; 41; 62]%N ++ stray_chars) s.
(** may follow a word without white space and is not part of it *)
Definition joins (s : str) : Prop := starts_in ([125; 126; 41; 62]%N ++ stray_chars) s.

(** ** Words *)
Inductive wkind := WName | WLocal | WThis | WDot | WUp | WLiteral | WKey | WGt | WElse | WOpen | WClose | WStray.
Inductive word : wkind -> str -> Prop :=
| wd_name w : name_ok w -> word WName w
| wd_local w : key_ok w -> word WLocal ([64%N] ++ w)
| wd_this : word WThis (lit "this")
| wd_dot : word WDot (lit "./")
| wd_up : word WUp (lit "../")
| wd_true : word WLiteral (lit "true")
| wd_false : word WLiteral (lit "false")
| wd_null : word WLiteral (lit "null")
| wd_number s : number_text s -> word WLiteral s
| wd_key w : key_ok w -> word WKey (w ++ [61%N])
| wd_gt : word WGt [62%N]
| wd_else : word WElse (lit "else")
| wd_open : word WOpen [40%N]
| wd_close : word WClose [41%N]
| wd_stray c : In c stray_chars -> word WStray [c].
(** words that are recognised whatever follows *)
Definition self_ending (k : wkind) : bool :=
  match k with WDot | WUp | WKey | WGt | WOpen | WClose | WStray => true | _ => false end.
Definition followed (k : wkind) (s : str) : Prop := self_ending k = true \/ ended s.

(** ** Mistakes *)
(** where the target of a call stands *)
Inductive flag := Plain | AfterGt | AfterElse | InSub.
(** where the mistake is: at the target; after the target and some arguments; after some [key=value]; after [key=] *)
Inductive place := AtTarget (f : flag) | AtArg (sub : bool) | AtHash (sub : bool) | AtValue.
Definition is_sub (f : flag) : bool := match f with InSub => true | _ => false end.
(** a word of this kind at this place is a mistake, reported so *)
Definition mistake (pl : place) (k : wkind) : option serr :=
  match pl, k with
  | AtTarget _, (WLiteral | WKey | WClose | WStray) => Some STokenCallTarget
  | AtTarget Plain, (WGt | WElse) => None
  | AtTarget _, WGt => Some STokenCallTarget
  | AtTarget _, WElse => Some SElseNotAllowed
  | AtTarget InSub, WOpen => Some SSubExprTargetNotAllowed
  | AtArg _, WGt => Some SPartialPosition
  | AtArg false, WClose => Some SSubExprNotOpen
  | AtArg true, WElse => Some SSubExpressionNotTerminated
  | AtArg _, WStray => Some STokenError
  | AtHash false, WClose => Some SSubExprNotOpen
  | AtHash _, (WKey | WClose) => None
  | AtHash _, _ => Some STokenHashKeyValue
  | AtValue, (WKey | WGt | WElse | WClose | WStray) => Some STokenParameter
  | _, _ => None
  end.
(** the tag must not end here *)
Definition mistake_end (pl : place) : option serr :=
  match pl with
  | AtTarget AfterElse => None
  | AtTarget _ => Some SExpectedIdentifier
  | AtArg true => Some SSubExpressionNotTerminated
  | AtValue => Some STokenParameter
  | _ => None
  end.

(** ** Mistakes in paths *)
(** words that cannot stand inside a path, and words that cannot stand after [../] *)
Definition misplaced (k : wkind) : option serr :=
  match k with
  | WThis | WDot => Some SUnexpectedPathExplicitThis
  | WUp => Some SUnexpectedPathParent
  | WLocal => Some SUnexpectedPathLocal
  | _ => None
  end.
Definition misplaced_up (k : wkind) : option serr :=
  match k with
  | WThis | WDot => Some SUnexpectedPathParentWithExplicit
  | WLocal => Some SUnexpectedPathParentWithLocal
  | _ => None
  end.
(** a quoted string (no backslashes) with a newline in it *)
Inductive broken_string (single : bool) : str -> Prop :=
| bk_string w b : (forall c, In c w -> ~ In c [quote_of single; 92; 10]%N) -> (forall c, In c b -> ~ In c [quote_of single; 92]%N) ->
    broken_string single ([quote_of single] ++ w ++ [10%N] ++ b ++ [quote_of single]).
(** [bad_path k s]: [s] starts with a path with a mistake of kind [k] in it and goes on to the end of the tag *)
Inductive bad_path : serr -> str -> Prop :=
(* [a/../b], [a/./b], [a.this], [a.@b] *)
| bp_word h t slash wk w s k : head_ok h -> tail_ok t -> word wk w -> misplaced wk = Some k ->
    (slash = false -> ~ starts_in [46; 47]%N w) -> followed wk s -> tag_rest s -> bad_path k (path_text h t ++ delim_text slash ++ w ++ s)
(* [a./b], [a../b] *)
| bp_joined h t wk w s k : head_ok h -> tail_ok t -> word wk w -> In wk [WDot; WUp] -> misplaced wk = Some k -> tag_rest s ->
    bad_path k (path_text h t ++ w ++ s)
(* [a..b], [a//b], [a/.b] *)
| bp_delims h t d d' s : head_ok h -> tail_ok t -> (d = false -> d' = false) -> tag_rest s -> ~ starts_in [46; 47]%N s ->
    bad_path SUnexpectedPathDelimiter (path_text h t ++ delim_text d ++ delim_text d' ++ s)
(* [a[b]], [a"b"] *)
| bp_literal h t sg s : head_ok h -> tail_ok t -> seg_ok sg -> seg_literal sg = true -> tag_rest s ->
    bad_path SExpectedPathDelimiter (path_text h t ++ seg_text sg ++ s)
(* a newline in a quoted segment *)
| bp_newline h t d q s s' : head_ok h -> tail_ok t -> broken_string q s -> tag_rest s' -> bad_path SLiteralNewline (path_text h t ++ delim_text d ++ s ++ s')
(* [../this], [../@b] *)
| bp_up n wk w s k : 1 <= n <= 255 -> word wk w -> misplaced_up wk = Some k -> followed wk s -> tag_rest s ->
    bad_path k (ups n ++ w ++ s)
(* [.b] *)
| bp_dot s : tag_rest s -> ~ starts_in [46; 47]%N s -> bad_path SUnexpectedPathDelimiter ([46%N] ++ s).

(** [bad pe pl k s]: [s], standing at [pl] and going to the end of its tag, has exactly one mistake, of kind [k], and
    nothing wrong stands before the mistake *)
Inductive bad (pe : penv) : place -> serr -> str -> Prop :=
(* a word that cannot stand here *)
| bad_word pl wk w s k : word wk w -> mistake pl wk = Some k -> followed wk s -> tag_rest s -> bad pe pl k (w ++ s)
(* the tag ends too early *)
| bad_end pl s k : mistake_end pl = Some k -> closes s -> bad pe pl k s
(* white space after [key=] *)
| bad_no_value g s : gap_str g -> g <> [] -> tag_rest s -> ~ starts_in blank_chars s -> bad pe AtValue STokenParameter (g ++ s)
(* a string that cannot stand here *)
| bad_string pl sg l s k : sitems_ok (quote_of sg) l -> tag_rest s ->
    (exists f, pl = AtTarget f /\ k = STokenCallTarget) \/ (exists b, pl = AtHash b /\ k = STokenHashKeyValue) ->
    bad pe pl k (expr_text (EStr sg l) ++ s)
(* a newline in a string *)
| bad_newline pl q s s' : (exists b, pl = AtArg b) \/ pl = AtValue -> broken_string q s -> tag_rest s' -> bad pe pl SLiteralNewline (s ++ s')
(* the mistake is in a path *)
| bad_at_path pl s k : (exists f, pl = AtTarget f) \/ (exists b, pl = AtArg b) \/ pl = AtValue -> bad_path k s -> bad pe pl k s
(* the mistake is inside a sub-expression *)
| bad_sub pl g s k : (exists b, pl = AtArg b) \/ pl = AtValue \/ (exists f, pl = AtTarget f /\ f <> InSub) ->
    gap_str g -> bad pe (AtTarget InSub) k s -> bad pe pl k ([40%N] ++ g ++ s)
(* the target and some arguments are good *)
| bad_args f h t args sa g s k : head_ok h -> tail_ok t -> Forall (expr_ok pe) args -> args_write Loose args sa ->
    gap_str g -> g <> [] \/ joins s -> bad pe (AtArg (is_sub f)) k s ->
    bad pe (AtTarget f) k (path_text h t ++ sa ++ g ++ s)
(* the target, some arguments and at least one [key=value] are good *)
| bad_hash f h t args sa hash sh g s k : head_ok h -> tail_ok t -> Forall (expr_ok pe) args -> args_write Loose args sa ->
    Forall (fun kv => key_ok (fst kv) /\ expr_ok pe (snd kv)) hash -> hash_writes Loose hash sh -> hash <> [] ->
    gap_str g -> g <> [] \/ joins s -> bad pe (AtHash (is_sub f)) k s ->
    bad pe (AtTarget f) k (path_text h t ++ sa ++ sh ++ g ++ s)
(* the mistake is in the value of a [key=] *)
| bad_value f h t args sa hash sh g key s k : head_ok h -> tail_ok t -> Forall (expr_ok pe) args -> args_write Loose args sa ->
    Forall (fun kv => key_ok (fst kv) /\ expr_ok pe (snd kv)) hash -> hash_writes Loose hash sh ->
    gap_str g -> g <> [] -> key_ok key -> bad pe AtValue k s ->
    bad pe (AtTarget f) k (path_text h t ++ sa ++ sh ++ g ++ (key ++ [61%N]) ++ s).

(** ** Bad tags *)
Definition flag_writes (f : flag) (s u : str) : Prop :=
  match f with
  | Plain => s = []
  | AfterGt => exists g, s = [62%N] ++ g /\ gap_str g
  | AfterElse => exists g, s = lit "else" ++ g /\ gap_str g /\ (g <> [] \/ joins u)
  | InSub => False
  end.
Definition tag_kinds : list (string * str) :=
  [("{{", []); ("{{", [35%N]); ("{{", [47%N]); ("{{{", []); ("{{{{", [])]%string.
(** the name under which a block can be opened and closed *)
Definition simple_name (c : callx) : option str := match c with Call (HdName w) [] _ _ => Some w | _ => None end.
Definition not_simple (c : callx) : Prop := match c with Call (HdName _ | HdUp _ _) [] _ _ => False | _ => True end.
Inductive bad_tag (pe : penv) : serr -> str -> Prop :=
| bt_call l m mark a f fl u k : In (l, mark) tag_kinds -> opening Loose l m mark a -> flag_writes f fl u ->
    bad pe (AtTarget f) k u -> ~ starts_in [123; 126; 9; 32; 35; 47; 33]%N (fl ++ u) -> bad_tag pe k (a ++ fl ++ u)
(* a block whose target is not a name *)
| bt_block_name m p c s : tag_writes Loose "{{" m [35%N] p c "}}" s -> callx_ok pe c -> not_simple c -> bad_tag pe SBlockName s.

(** ** Sources *)
Inductive event :=
| EvItem (i : item)
| EvElse (cond : option callx) (m : tildes)
| EvOpen (p : bool) (c : callx) (m : tildes)
| EvClose (m : tildes) (c : callx)
| EvBad (k : serr)
| EvRaw (o : str)           (* a raw block opened as [o] and closed under another name *)
| EvUnclosed (k : serr).    (* a piece that is still open at the end of the source *)
Definition is_block (i : item) : bool := match i with IBlock _ _ _ _ _ _ => true | _ => false end.
(** the text of a raw block: tags and text, but no raw block *)
Definition raw_text (pe : penv) (s : str) : Prop := exists d, items_ok pe true true d /\ doc_writes Loose d s /\ ~ occurs (lit "{{{{") s.
(** a raw block opened by the call [c] and closed under the name [w] *)
Definition raw_writes (pe : penv) (c : callx) (w s : str) : Prop :=
  exists m a x m' z, s = a ++ x ++ z /\ callx_ok pe c /\ block_name_ok c /\ tag_writes Loose "{{{{" m [] false c "}}}}" a
    /\ raw_text pe x /\ name_ok w /\ close_writes Loose "{{{{" m' w "}}}}" z.
(** pieces that are not closed, and the errors for that *)
Inductive unclosed (pe : penv) : serr -> str -> Prop :=
| uc_comment s : s <> [] -> ~ occurs (lit "}}") s -> (forall r, s <> lit "--" ++ r) -> unclosed pe SCommentNotTerminated (lit "{{!" ++ s)
| uc_raw_comment s : s <> [] -> ~ occurs (lit "--}}") s -> unclosed pe SRawCommentNotTerminated (lit "{{!--" ++ s)
| uc_escaped s : s <> [] -> ~ occurs (lit "}}") s -> ~ begins_with 123%N s -> unclosed pe SRawStatementNotTerminated (lit "\{{" ++ s)
| uc_link (esc : bool) s : s <> [] -> s <> [10%N] -> (forall c, In c s -> ~ In c [92; 124; 93]%N) ->
    unclosed pe SLinkNotTerminated ((if esc then [92%N] else []) ++ lit "[[" ++ s)
| uc_raw_block m c a x : callx_ok pe c -> block_name_ok c -> tag_writes Loose "{{{{" m [] false c "}}}}" a -> raw_text pe x ->
    unclosed pe SRawBlockNotTerminated (a ++ x).
Inductive event_writes (pe : penv) : event -> str -> Prop :=
| ew_item i s : is_block i = false -> item_ok pe i -> item_writes Loose i s -> event_writes pe (EvItem i) s
| ew_else cond m s : (forall x, cond = Some x -> callx_ok pe x) -> else_writes Loose cond m s -> event_writes pe (EvElse cond m) s
| ew_open p c m s : callx_ok pe c -> block_name_ok c -> tag_writes Loose "{{" m [35%N] p c "}}" s -> event_writes pe (EvOpen p c m) s
| ew_close m c s : callx_ok pe c -> simple_name c <> None \/ not_simple c -> tag_writes Loose "{{" m [47%N] false c "}}" s -> event_writes pe (EvClose m c) s
| ew_bad k s : bad_tag pe k s -> event_writes pe (EvBad k) s
| ew_raw c w s : raw_writes pe c w s -> w <> call_name c -> event_writes pe (EvRaw (call_name c)) s
| ew_unclosed k s : unclosed pe k s -> event_writes pe (EvUnclosed k) s.
Definition is_unclosed (e : event) : bool := match e with EvUnclosed _ => true | _ => false end.
(** texts are never adjacent, and neither join the tag before nor the tag after; what is not closed is the last piece *)
Definition is_text_event (e : event) : bool := match e with EvItem (IText _) => true | _ => false end.
Inductive events_ok : bool -> list event -> Prop :=
| eo_nil after : events_ok after []
| eo_text after s l : plain s -> (after = true -> plain_after s) -> (l <> [] -> plain_before s) ->
    match l with e :: _ => is_text_event e = false | [] => True end ->
    events_ok false l -> events_ok after (EvItem (IText s) :: l)
| eo_tag after e l : is_text_event e = false -> (is_unclosed e = true -> l = []) -> events_ok true l -> events_ok after (e :: l).
(** [ss] are the pieces [evs] of a source, as written *)
Definition pieces_of (pe : penv) (evs : list event) (ss : list str) : Prop := events_ok false evs /\ Forall2 (event_writes pe) evs ss.
(** [s] is a source made of the pieces [evs] *)
Definition source_of (pe : penv) (evs : list event) (s : str) : Prop := exists ss, pieces_of pe evs ss /\ s = concat ss.

(** a mistake: the kind of its error and the notes of the report *)
Definition fault : Type := serr * list str.
(** [e] is the error for [m] in the source [s] of this file: its kind, and the report for some place of the source, with these notes *)
Definition error_for (pe : penv) (file s : str) (m : fault) (e : syntax_error) : Prop :=
  se_kind e = fst m /\ exists line byte, err_info (pe_width pe) file s line byte (snd m) = Some (se_info e).
(** the mistakes of a source, in order: [open] are the names of the blocks open so far, innermost first.
    A closing tag closes the innermost block even when the name is wrong; a bad tag opens and closes nothing;
    a block that is never closed is no error. *)
Fixpoint verdict (open : list str) (evs : list event) : list fault :=
  match evs with
  | [] => []
  | EvItem _ :: evs | EvElse _ _ :: evs => verdict open evs
  | EvOpen _ c _ :: evs => verdict (call_name c :: open) evs
  | EvBad k :: evs | EvUnclosed k :: evs => (k, []) :: verdict open evs
  | EvRaw o :: evs => (STagNameMismatch, [lit "opening name is '" ++ o ++ lit "'"]) :: verdict open evs
  | EvClose _ c :: evs =>
      match open with
      | [] => (SBlockNotOpen, match simple_name c with Some w => [lit "perhaps open the block '" ++ w ++ lit "'"] | None => [] end) :: verdict [] evs
      | o :: open =>
          match simple_name c with
          | Some w => (if streq o w then [] else [(STagNameMismatch, [lit "opening name is '" ++ o ++ lit "'"])]) ++ verdict open evs
          | None => (SExpectedIdentifier, []) :: verdict open evs
          end
      end
  end.

(** ** Where the mistakes are *)
(** a mistake, and the bytes of the source at which its piece (a tag) starts and ends *)
Definition spot : Type := fault * (nat * nat).
Definition open_after (open : list str) (e : event) : list str :=
  match e with EvOpen _ c _ => call_name c :: open | EvClose _ _ => tl open | _ => open end.
(** [ss] are the pieces as written, from byte [p] on *)
Fixpoint mistakes (p : nat) (open : list str) (evs : list event) (ss : list str) : list spot :=
  match evs, ss with
  | e :: evs, s :: ss => map (fun m => (m, (p, p + blen s))) (verdict open [e]) ++ mistakes (p + blen s) (open_after open e) evs ss
  | _, _ => []
  end.
(** [e] is the error for the mistake [x] of [s]: its kind, and the report for a byte of the faulty piece.
    The line number of the report is that of the byte (counted from [line0]), when [exact] holds. *)
Definition located (pe : penv) (file s : str) (line0 : nat) (exact : Prop) (x : spot) (e : syntax_error) : Prop :=
  se_kind e = fst (fst x) /\ exists line byte, err_info (pe_width pe) file s line byte (snd (fst x)) = Some (se_info e)
    /\ fst (snd x) <= byte < snd (snd x) /\ (exact -> line = line0 + newlines_before 0 s byte).
(** no newline in the faulty piece *)
Definition on_one_line (s : str) (x : spot) : Prop := newlines_before 0 s (fst (snd x)) = newlines_before 0 s (snd (snd x)).
(** no newline that the line counter is known to miss, see C17: inside links, and after [../] or a path delimiter *)
Definition counted (s : str) : Prop := forall toks, lex s = Some toks -> ~ uncounted_newline toks.

(** ** The text of the report *)
(** the notes of a report about line number [line] *)
Definition note_lines (line : nat) (notes : list str) : str :=
  match notes with
  | [] => []
  | _ => [10%N] ++ concat (map (fun n => repeat_c 32%N (length (nat_str (line + 1)) + 1) ++ lit " = note: " ++ n) notes)
  end.
(** the report of [e] shows the line of the source with the mistake [x], says its number (lines are counted from [line0])
    and column, and points at a character of the faulty piece *)
Definition shown (file s : str) (line0 : nat) (x : spot) (e : syntax_error) : Prop :=
  se_kind e = fst (fst x) /\ exists byte col text, fst (snd x) <= byte < snd (snd x) /\ line_at s byte col text
    /\ let line := line0 + newlines_before 0 s byte in se_info e = report_lines file line col text (note_lines line (snd (fst x))).
(** what the report needs: ASCII, one column for each character, and no newline at the start *)
Definition showable (pe : penv) (s : str) : Prop :=
  Forall (fun c => (c < 128)%N) s /\ (forall c, (c < 128)%N -> pe_width pe c = 1) /\ (forall r, s <> 10%N :: r).
