(** * Lexer: model of /repo/src/lexer.rs.  No proofs in this file. *)
From Coq Require Import String.
From Verif Require Import Str Regex.
Open Scope nat_scope. Open Scope list_scope.

(** ** Token kinds (one type per logos enum) *)

(** src/lexer.rs:12-59 [Block] *)
Inductive tblock :=
| BStartRawBlock | BStartRawComment | BStartRawStatement | BStartComment | BStartStatement
| BStartBlockScope | BStartLink | BEndBlockScope | BEndRawBlock | BText | BNewline | BError.
(** src/lexer.rs:69-84 [RawComment], 93-108 [RawStatement], 118-133 [Comment]: Text, End, Newline, Error *)
Inductive tplain := PText | PEnd | PNewline | PError.
(** src/lexer.rs:144-235 [Parameters] *)
Inductive tparam :=
| KPartial | KElse | KThis | KThisDotSlash | KParentRef | KIdent | KLocalIdent | KPathDelim
| KDoubleQuote | KSingleQuote | KStartArray | KStartSub | KEndSub | KHashKey | KNumber
| KTrue | KFalse | KNull | KWhiteSpace | KEnd | KNewline | KError.
(** src/lexer.rs:239-264 [DoubleQuoteString], 268-293 [SingleQuoteString]; 297-320 [Array] has no
    EscapedNewline variant (never produced in array mode here). *)
Inductive tquote := QText | QEscapedNewline | QEscaped | QEnd | QNewline | QError.
(** src/lexer.rs:324-358 [Link] *)
Inductive tlink := LText | LPipe | LEscapedNewline | LEscapedPipe | LEscaped | LEnd | LNewline | LError.

(** src/lexer.rs:360-380 [Token] without its span *)
Inductive tkind :=
| TBlock (b : tblock)
| TRawComment (p : tplain)
| TRawStatement (p : tplain)
| TComment (p : tplain)
| TParam (p : tparam)
| TDouble (q : tquote)
| TSingle (q : tquote)
| TArray (q : tquote)
| TLink (l : tlink).

(** src/lexer.rs:360-380 [Token]: a kind and the byte span [t_start..t_end] *)
Record token := Tok { t_kind : tkind; t_start : nat; t_end : nat }.

(** ** Patterns of the modes, in order of decreasing priority *)
Definition ch (s : string) : re := RLit (lit s).
Open Scope string_scope.

Definition class (l : str) : chr -> bool := fun c => existsb (N.eqb c) l.
(** the regex [.]: any character but a newline *)
Definition dot : re := RChr (fun c => negb (c =? 10)%N).
(** [[\t ]*] *)
Definition blanks : re := RStar (RChr (class [9; 32]%N)).
Definition nl : re := RChr (N.eqb 10).
Definition digit : re := RChr is_digit.

(* src/lexer.rs:11 and 143, subpattern [identifier]: the negated class of Unicode white space and the
   26 ASCII characters listed here by code. *)
Definition ident_excluded : str :=
  [34; 33; 35; 37; 38; 39; 40; 41; 42; 43; 44; 46; 47; 59; 60; 61; 62; 64; 91; 93; 94; 96; 123; 124; 125; 126]%N.
Definition is_ident (c : chr) : bool := negb (is_ws c) && negb (class ident_excluded c).
Definition ident : re := RChr is_ident.

(** src/lexer.rs:14-54 *)
Definition pats_block : list (re * tblock) :=
  [ (RCat (ch "{{{{") (RCat (ROpt (ch "~")) blanks), BStartRawBlock);
    (ch "{{!--", BStartRawComment);
    (RCat (ch "\{{") (ROpt (ch "{")), BStartRawStatement);
    (ch "{{!", BStartComment);
    (RCat (ch "{{") (RCat (ROpt (ch "{")) (RCat (ROpt (ch "~")) blanks)), BStartStatement);
    (RCat (ch "{{") (RCat (ROpt (ch "~")) (RCat blanks (RCat (ch "#") blanks))), BStartBlockScope);
    (RCat (ROpt (ch "\")) (ch "[["), BStartLink);
    (RCat (ch "{{") (RCat (ROpt (ch "~")) (RCat blanks (ch "/"))), BEndBlockScope);
    (RCat (ch "{{{{") (RCat (ROpt (ch "~")) (RCat blanks (ch "/"))), BEndRawBlock);
    (dot, BText);
    (nl, BNewline) ].

(** src/lexer.rs:70-80 *)
Definition pats_raw_comment : list (re * tplain) :=
  [ (dot, PText); (ch "--}}", PEnd); (nl, PNewline) ].
(** src/lexer.rs:94-104 *)
Definition pats_raw_statement : list (re * tplain) :=
  [ (dot, PText); (RCat (ROpt (ch "~")) (RCat (ROpt (ch "}")) (ch "}}")), PEnd); (nl, PNewline) ].
(** src/lexer.rs:119-129 *)
Definition pats_comment : list (re * tplain) :=
  [ (dot, PText); (ch "}}", PEnd); (nl, PNewline) ].

(** src/lexer.rs:204 number literal [-?([0-9]+\.)?[0-9]+((e|E)[+-]?[0-9]+)?] *)
Definition re_number : re :=
  RCat (ROpt (ch "-"))
   (RCat (ROpt (RCat (RPlus digit) (ch ".")))
    (RCat (RPlus digit)
      (ROpt (RCat (RChr (class [101; 69]%N))
                  (RCat (ROpt (RChr (class [43; 45]%N))) (RPlus digit)))))).

(** src/lexer.rs:145-231.  Keyword tokens have logos priority 2*length >= 8 and so win over
    Number (declared 3) and Identifier (declared 2) on equal length; the one-character tokens never tie. *)
Definition pats_param : list (re * tparam) :=
  [ (ch ">", KPartial);
    (ch "else", KElse);
    (ch "this", KThis);
    (ch "./", KThisDotSlash);
    (ch "../", KParentRef);
    (ch "true", KTrue);
    (ch "false", KFalse);
    (ch "null", KNull);
    (re_number, KNumber);
    (RPlus ident, KIdent);
    (RCat (ch "@") (RPlus ident), KLocalIdent);
    (RChr (class [46; 47]%N), KPathDelim);
    (RChr (N.eqb 34), KDoubleQuote);
    (ch "'", KSingleQuote);
    (ch "[", KStartArray);
    (ch "(", KStartSub);
    (ch ")", KEndSub);
    (RCat (RPlus ident) (ch "="), KHashKey);
    (RPlus (RChr (class [32; 9]%N)), KWhiteSpace);
    (RCat (ROpt (ch "~")) (RCat (ROpt (ch "}")) (RCat (ROpt (ch "}")) (ch "}}"))), KEnd);
    (nl, KNewline) ].

(** src/lexer.rs:240-260; [quote] is the delimiter (34 or 39) *)
Definition pats_quote (quote : chr) : list (re * tquote) :=
  [ (RPlus (RChr (fun c => negb (class [92; quote; 10]%N c))), QText);
    (ch "\n", QEscapedNewline);
    (RLit [92; quote]%N, QEscaped);
    (RChr (N.eqb quote), QEnd);
    (nl, QNewline) ].
(** src/lexer.rs:298-316 *)
Definition pats_array : list (re * tquote) :=
  [ (RPlus (RChr (fun c => negb (class [93; 10]%N c))), QText);
    (ch "\]", QEscaped);
    (ch "]", QEnd);
    (nl, QNewline) ].
(** src/lexer.rs:325-354.  Newline (token, priority 2) wins over Text (class, priority 1) on a
    lone newline. *)
Definition pats_link : list (re * tlink) :=
  [ (nl, LNewline);
    (RPlus (RChr (fun c => negb (class [92; 124; 93]%N c))), LText);
    (ch "|", LPipe);
    (ch "\n", LEscapedNewline);
    (ch "\|", LEscapedPipe);
    (ch "\]", LEscaped);
    (ch "]]", LEnd) ].
Close Scope string_scope.

(** ** Modes *)
(** src/lexer.rs:439-449 [Modes] *)
Inductive mode :=
| MBlock | MRawComment | MRawStatement | MComment | MParam | MDouble | MSingle | MArray | MLink.

Definition tag {A} (f : A -> tkind) (l : list (re * A)) : list (re * tkind) :=
  map (fun p => (fst p, f (snd p))) l.

Definition pats (m : mode) : list (re * tkind) :=
  match m with
  | MBlock => tag TBlock pats_block
  | MRawComment => tag TRawComment pats_raw_comment
  | MRawStatement => tag TRawStatement pats_raw_statement
  | MComment => tag TComment pats_comment
  | MParam => tag TParam pats_param
  | MDouble => tag TDouble (pats_quote 34%N)
  | MSingle => tag TSingle (pats_quote 39%N)
  | MArray => tag TArray pats_array
  | MLink => tag TLink pats_link
  end.

(** The error variant of each enum. *)
Definition err_kind (m : mode) : tkind :=
  match m with
  | MBlock => TBlock BError
  | MRawComment => TRawComment PError
  | MRawStatement => TRawStatement PError
  | MComment => TComment PError
  | MParam => TParam KError
  | MDouble => TDouble QError
  | MSingle => TSingle QError
  | MArray => TArray QError
  | MLink => TLink LError
  end.

(** src/lexer.rs:494-640 the mode switches in [Lexer::next] *)
Definition next_mode (k : tkind) : mode :=
  match k with
  | TBlock b =>
      match b with
      | BStartRawBlock | BEndRawBlock | BStartStatement | BStartBlockScope | BEndBlockScope => MParam
      | BStartRawComment => MRawComment
      | BStartRawStatement => MRawStatement
      | BStartComment => MComment
      | BStartLink => MLink
      | BText | BNewline | BError => MBlock
      end
  | TRawComment p => match p with PEnd => MBlock | _ => MRawComment end
  | TRawStatement p => match p with PEnd => MBlock | _ => MRawStatement end
  | TComment p => match p with PEnd => MBlock | _ => MComment end
  | TParam p =>
      match p with
      | KDoubleQuote => MDouble
      | KSingleQuote => MSingle
      | KStartArray => MArray
      | KEnd => MBlock
      | _ => MParam
      end
  | TDouble q => match q with QEnd => MParam | _ => MDouble end
  | TSingle q => match q with QEnd => MParam | _ => MSingle end
  | TArray q => match q with QEnd => MParam | _ => MArray end
  | TLink l => match l with LEnd => MBlock | _ => MLink end
  end.

(** One token: kind and number of characters.  When no pattern matches, logos emits the error
    variant for one character. *)
Definition lex1 (m : mode) (s : str) : tkind * nat :=
  match munch (pats m) s with
  | Some r => r
  | None => (err_kind m, 1)
  end.

(** The whole token stream of [Lexer] from mode [m] at byte [pos] ([Iterator for Lexer],
    src/lexer.rs:492-640).  The lexer never depends on the parser, so the parser model consumes this
    list.  [None] = out of fuel, excluded by [LexerFacts.lex_go_total]. *)
Fixpoint lex_go (fuel : nat) (m : mode) (pos : nat) (s : str) : option (list token) :=
  match s with
  | [] => Some []
  | _ =>
      match fuel with
      | 0 => None
      | S fuel' =>
          let (k, n) := lex1 m s in
          let e := pos + blen (firstn n s) in
          match lex_go fuel' (next_mode k) e (skipn n s) with
          | Some l => Some (Tok k pos e :: l)
          | None => None
          end
      end
  end.

(** src/lexer.rs:673-677 [lex] (document mode) and 467-474 [set_parameters_mode] *)
Definition lex_from (m : mode) (s : str) : option (list token) := lex_go (length s) m 0 s.
Definition lex (s : str) : option (list token) := lex_from MBlock s.

(** src/lexer.rs:398-417 [Token::is_text] *)
Definition is_text (k : tkind) : bool :=
  match k with
  | TBlock BText | TBlock BNewline => true
  | TRawComment PText | TRawComment PNewline => true
  | TRawStatement PText | TRawStatement PNewline => true
  | TComment PText | TComment PNewline => true
  | _ => false
  end.

(** src/lexer.rs:419-436 [Token::is_newline] *)
Definition is_newline (k : tkind) : bool :=
  match k with
  | TRawComment PNewline | TRawStatement PNewline | TComment PNewline => true
  | TBlock BNewline => true
  | TParam KNewline => true
  | TDouble QNewline | TSingle QNewline | TArray QNewline => true
  | TLink LNewline => true
  | _ => false
  end.

(** src/lexer.rs:642-669 [normalize] *)
Fixpoint normalize_go (span : option (nat * nat)) (l : list token) : list token :=
  match l with
  | [] => match span with
          | Some (a, b) => [Tok (TBlock BText) a b]
          | None => []
          end
  | t :: l' =>
      if is_text (t_kind t) then
        match span with
        | Some (a, _) => normalize_go (Some (a, t_end t)) l'
        | None => normalize_go (Some (t_start t, t_end t)) l'
        end
      else
        match span with
        | Some (a, b) => Tok (TBlock BText) a b :: t :: normalize_go None l'
        | None => t :: normalize_go None l'
        end
  end.
Definition normalize (l : list token) : list token := normalize_go None l.

(** src/lexer.rs:687-694 [collect] *)
Definition collect (s : str) (normalized : bool) : option (list token) :=
  match lex s with
  | Some l => Some (if normalized then normalize l else l)
  | None => None
  end.
