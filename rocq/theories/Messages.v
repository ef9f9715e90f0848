(** * Messages: model of the error types of /repo/src/error/{mod,render,helper,syntax}.rs: the values, their
    [Display], [Debug] and [PartialEq].  No proofs in this file. *)
From Coq Require Import String.
From Verif Require Import Str ErrInfo.
Open Scope nat_scope. Open Scope list_scope.

(** src/error/syntax.rs:7-169 [Display for SyntaxError]; [TokenError] is only built at src/parser/call.rs:355,
    with the context "parameters" *)
Definition serr_msg (k : serr) : str :=
  match k with
  | SExpectedIdentifier => lit "Syntax error, expecting identifier"
  | SExpectedPath => lit "Syntax error, expecting path"
  | SBlockName => lit "Syntax error, block name must be an identifier"
  | SLiteralNewline => lit "Syntax error, new lines in raw literals must be escaped (\n)"
  | SPartialPosition => lit "Syntax error, partial operator (>) must come first"
  | SSubExprNotOpen => lit "Syntax error, got close sub-expression but no sub-expression is open"
  | SSubExprTargetNotAllowed => lit "Syntax error, sub-expression must use an identifier for the target"
  | SPathDelimiterNotAllowed => lit "Syntax error, path delimiter (.) not allowed here"
  | SElseNotAllowed => lit "Syntax error, 'else' keyword is not allowed here"
  | SUnexpectedPathExplicitThis => lit "Syntax error, explicit this reference must be at the start of a path"
  | SUnexpectedPathParent => lit "Syntax error, parent scopes must be at the start of a path"
  | SUnexpectedPathLocal => lit "Syntax error, local scope identifiers must be at the start of a path"
  | SUnexpectedPathDelimiter => lit "Syntax error, expected identifier but got path delimiter"
  | SUnexpectedPathParentWithLocal => lit "Syntax error, parent scopes and local identifiers are mutually exclusive"
  | SUnexpectedPathParentWithExplicit => lit "Syntax error, parent scopes and explicit this are mutually exclusive"
  | SExpectedPathDelimiter => lit "Syntax error, expected path delimiter (.)"
  | SOpenSubExpression => lit "Syntax error, sub-expression not terminated"
  | STagNameMismatch => lit "Syntax error, closing name does not match"
  | SBlockNotOpen => lit "Syntax error, got a closing tag but no block is open"
  | SSubExpressionNotTerminated => lit "Syntax error, sub-expression was not terminated"
  | SLinkNotTerminated => lit "Syntax error, link was not terminated"
  | SRawBlockOpenNotTerminated => lit "Syntax error, raw block open tag was not terminated"
  | SRawBlockNotTerminated => lit "Syntax error, raw block was not terminated"
  | SRawCommentNotTerminated => lit "Syntax error, raw comment was not terminated"
  | SRawStatementNotTerminated => lit "Syntax error, raw statement was not terminated"
  | SCommentNotTerminated => lit "Syntax error, comment was not terminated"
  | SBlockTargetSubExpr => lit "Syntax error, block target sub expressions are only supported for partials"
  | SEmptyPath => lit "Syntax error, path is empty"
  | SComponentType => lit "Syntax error, path component type could not be identified"
  | SMixedPartialConditional => lit "Syntax error, partials and conditionals may not be combined"
  | STokenError => lit "Syntax error, unexpected error token for context 'parameters'"
  | STokenCallTarget => lit "Syntax error, expecting path or sub-expression for call target"
  | STokenJsonLiteral => lit "Syntax error, expecting JSON literal token"
  | STokenParameter => lit "Syntax error, expecting parameter token"
  | STokenHashKeyValue => lit "Syntax error, expecting key/value token"
  | STokenRawLiteral => lit "Syntax error, expecting raw literal token"
  | STokenDoubleQuoteLiteral => lit "Syntax error, unexpected token parsing quoted literal ("""")"
  | STokenSingleQuoteLiteral => lit "Syntax error, unexpected token parsing quoted literal ('')"
  | STokenArrayLiteral => lit "Syntax error, unexpected token parsing quoted literal ([])"
  | STokenLink => lit "Syntax error, unexpected token parsing link"
  | STokenParameterPath => lit "Syntax error, unexpected token parsing path"
  | STokenEndRawBlock => lit "Syntax error, unexpected token, expecting end of raw block"
  end.
(** src/error/syntax.rs:171-221 [Debug for SyntaxError]: the message, a newline and the snippet *)
Definition syntax_debug (e : syntax_error) : str := serr_msg (se_kind e) ++ [10%N] ++ se_info e.

(** An I/O error ([std::io::Error]) is known to the model by a number; what it says and its [ErrorKind] are
    given by functions [io_text], [io_kind] of that number. *)

(** ** The types as they are *)
(** src/error/render.rs:9-57 [RenderError] and src/error/helper.rs:11-68 [HelperError].  The [Json] variants are
    left out (serialising a [Value] cannot fail). *)
Inductive render_error :=
| RePartialNotFound (name : str)
| ReVariableNotFound (path name : str)
| ReHelperNotFound (name : str)
| ReEvaluatePath (path : str)
| RePartialCycle (name : str)
| ReHelperCycle (name : str)
| RePartialIdentifier (path : str)
| ReBlockIdentifier (path : str)
| ReBlockTargetSubExpr
| ReHelper (e : helper_error)
| ReIo (io : nat)
with helper_error :=
| HeMessage (msg : str)
| HeBlockTemplate (name : str)
| HeBlockTemplateNotAllowed (name : str)
| HeArityExact (name : str) (n : N)
| HeArityRange (name : str) (lo hi : N)
| HeArgumentTypeString (name : str) (index : N)
| HeLookupField (name field : str)
| HeInvalidNumericalOperand (name : str)
| HeTypeAssert (name expected got : str)
| HeSyntax (e : syntax_error)
| HeRender (e : render_error)
| HeIo (io : nat).
(** src/error/mod.rs:19-33 [Error] *)
Inductive any_error :=
| AnySyntax (e : syntax_error)
| AnyRender (e : render_error)
| AnyTemplateNotFound (name : str)
| AnyIo (io : nat).

Definition quoted (s : str) : str := [39%N] ++ s ++ [39%N].
(** the [#[error(...)]] attributes of src/error/render.rs:10-57 and src/error/helper.rs:12-67; transparent variants
    show what they wrap *)
Fixpoint render_msg (io_text : nat -> str) (e : render_error) : str :=
  match e with
  | RePartialNotFound name => lit "Partial " ++ quoted name ++ lit " not found"
  | ReVariableNotFound path name =>
      lit "Variable " ++ quoted path ++ lit " not found in " ++ name ++ lit ", check the variable path and verify the template data"
  | ReHelperNotFound name => lit "Helper " ++ quoted name ++ lit " not found, check the name"
  | ReEvaluatePath path => lit "Syntax error while evaluating path " ++ quoted path
  | RePartialCycle name => lit "Cycle detected whilst processing partial " ++ quoted name
  | ReHelperCycle name => lit "Cycle detected whilst processing helper " ++ quoted name
  | RePartialIdentifier path => lit "Partial names must be simple identifiers, got path " ++ quoted path
  | ReBlockIdentifier path => lit "Block names must be simple identifiers, got path " ++ quoted path
  | ReBlockTargetSubExpr => lit "Block target sub expressions are only supported for partials"
  | ReHelper e => helper_msg io_text e
  | ReIo io => io_text io
  end
with helper_msg (io_text : nat -> str) (e : helper_error) : str :=
  match e with
  | HeMessage msg => msg
  | HeBlockTemplate name => lit "Helper " ++ quoted name ++ lit " expects a block template"
  | HeBlockTemplateNotAllowed name => lit "Helper " ++ quoted name ++ lit " does not allow a block template"
  | HeArityExact name n => lit "Helper " ++ quoted name ++ lit " got invalid arity expects " ++ N_str n ++ lit " arguments(s)"
  | HeArityRange name lo hi =>
      lit "Helper " ++ quoted name ++ lit " got invalid arity expects " ++ N_str lo ++ lit "-" ++ N_str hi ++ lit " argument(s)"
  | HeArgumentTypeString name i => lit "Helper " ++ quoted name ++ lit " got invalid argument at index " ++ N_str i ++ lit ", string expected"
  | HeLookupField name field => lit "Helper " ++ quoted name ++ lit " failed to resolve field " ++ quoted field
  | HeInvalidNumericalOperand name => lit "Helper " ++ quoted name ++ lit " got invalid numerical operand"
  | HeTypeAssert name expected got =>
      lit "Helper " ++ quoted name ++ lit " type assertion failed, expected " ++ quoted expected ++ lit " but got " ++ quoted got
  | HeSyntax e => serr_msg (se_kind e)
  | HeRender e => render_msg io_text e
  | HeIo io => io_text io
  end.
(** src/error/mod.rs:19-33 [Display for Error] *)
Definition any_msg (io_text : nat -> str) (e : any_error) : str :=
  match e with
  | AnySyntax e => serr_msg (se_kind e)
  | AnyRender e => render_msg io_text e
  | AnyTemplateNotFound name => lit "Template not found " ++ quoted name
  | AnyIo io => io_text io
  end.
(** src/error/mod.rs:35-44, 65-71 and src/error/render.rs:59-64 [Debug for Error], [Debug for IoError], [Debug for RenderError] *)
Definition any_debug (io_text : nat -> str) (e : any_error) : str :=
  match e with
  | AnySyntax e => syntax_debug e
  | AnyRender e => render_msg io_text e
  | AnyTemplateNotFound _ => any_msg io_text e
  | AnyIo io => io_text io
  end.

(** Derived equality of the fieldless part of src/error/syntax.rs:6-7: the same variant *)
Definition serr_eq_dec (a b : serr) : {a = b} + {a <> b}.
Proof. decide equality. Defined.
(** src/error/syntax.rs:6 [derive(PartialEq)]: the same variant and the same snippet *)
Definition syntax_eq (a b : syntax_error) : bool :=
  (if serr_eq_dec (se_kind a) (se_kind b) then true else false) && streq (se_info a) (se_info b).
(** src/error/render.rs:77-86 [PartialEq for RenderError] *)
Definition render_eq (a b : render_error) : bool :=
  match a, b with
  | RePartialNotFound s, RePartialNotFound o => streq s o
  | _, _ => false
  end.
(** src/error/mod.rs:57-63 [PartialEq for IoError] *)
Definition io_eq (io_kind : nat -> nat) (a b : nat) : bool := io_kind a =? io_kind b.
(** src/error/mod.rs:18 [derive(PartialEq)] for [Error] *)
Definition any_eq (io_kind : nat -> nat) (a b : any_error) : bool :=
  match a, b with
  | AnySyntax a, AnySyntax b => syntax_eq a b
  | AnyRender a, AnyRender b => render_eq a b
  | AnyTemplateNotFound a, AnyTemplateNotFound b => streq a b
  | AnyIo a, AnyIo b => io_eq io_kind a b
  | _, _ => false
  end.

(** ** The errors of the renderer's model *)
(** [RenderError] and [HelperError] in one type: the wrapping variants [RenderError::Helper] and
    [HelperError::Render] are transparent and are dropped ([flatten]). *)
Inductive rerr :=
| EPartialNotFound (name : str)
| EVariableNotFound (path name : str)
| EHelperNotFound (name : str)
| EEvaluatePath (path : str)
| EPartialCycle (name : str)
| EHelperCycle (name : str)
| EPartialIdentifier (path : str)
| EBlockIdentifier (path : str)
| EBlockTargetSubExpr
| EMessage (msg : str)
| EBlockTemplate (name : str)
| EBlockTemplateNotAllowed (name : str)
| EArityExact (name : str) (n : N)
| EArityRange (name : str) (lo hi : N)
| EArgumentTypeString (name : str) (index : N)
| ELookupField (name field : str)
| EInvalidNumericalOperand (name : str)
| ETypeAssert (name expected got : str)
| ESyntax (e : syntax_error)
| EIo (kind : nat).
(** the value without its wrappers *)
Fixpoint flatten (e : render_error) : rerr :=
  match e with
  | RePartialNotFound n => EPartialNotFound n
  | ReVariableNotFound p n => EVariableNotFound p n
  | ReHelperNotFound n => EHelperNotFound n
  | ReEvaluatePath p => EEvaluatePath p
  | RePartialCycle n => EPartialCycle n
  | ReHelperCycle n => EHelperCycle n
  | RePartialIdentifier p => EPartialIdentifier p
  | ReBlockIdentifier p => EBlockIdentifier p
  | ReBlockTargetSubExpr => EBlockTargetSubExpr
  | ReHelper e => flatten_helper e
  | ReIo k => EIo k
  end
with flatten_helper (e : helper_error) : rerr :=
  match e with
  | HeMessage m => EMessage m
  | HeBlockTemplate n => EBlockTemplate n
  | HeBlockTemplateNotAllowed n => EBlockTemplateNotAllowed n
  | HeArityExact n k => EArityExact n k
  | HeArityRange n a b => EArityRange n a b
  | HeArgumentTypeString n i => EArgumentTypeString n i
  | HeLookupField n f => ELookupField n f
  | HeInvalidNumericalOperand n => EInvalidNumericalOperand n
  | HeTypeAssert n a b => ETypeAssert n a b
  | HeSyntax e => ESyntax e
  | HeRender e => flatten e
  | HeIo k => EIo k
  end.
(** ** What the model's errors say: the message of any error with that content *)
(** the message of the [RenderError] or [HelperError] with this content, with no wrapper around it *)
Definition rerr_msg (io_text : nat -> str) (e : rerr) : str :=
  match e with
  | EPartialNotFound n => render_msg io_text (RePartialNotFound n)
  | EVariableNotFound p n => render_msg io_text (ReVariableNotFound p n)
  | EHelperNotFound n => render_msg io_text (ReHelperNotFound n)
  | EEvaluatePath p => render_msg io_text (ReEvaluatePath p)
  | EPartialCycle n => render_msg io_text (RePartialCycle n)
  | EHelperCycle n => render_msg io_text (ReHelperCycle n)
  | EPartialIdentifier p => render_msg io_text (RePartialIdentifier p)
  | EBlockIdentifier p => render_msg io_text (ReBlockIdentifier p)
  | EBlockTargetSubExpr => render_msg io_text ReBlockTargetSubExpr
  | EMessage m => helper_msg io_text (HeMessage m)
  | EBlockTemplate n => helper_msg io_text (HeBlockTemplate n)
  | EBlockTemplateNotAllowed n => helper_msg io_text (HeBlockTemplateNotAllowed n)
  | EArityExact n k => helper_msg io_text (HeArityExact n k)
  | EArityRange n a b => helper_msg io_text (HeArityRange n a b)
  | EArgumentTypeString n i => helper_msg io_text (HeArgumentTypeString n i)
  | ELookupField n f => helper_msg io_text (HeLookupField n f)
  | EInvalidNumericalOperand n => helper_msg io_text (HeInvalidNumericalOperand n)
  | ETypeAssert n a b => helper_msg io_text (HeTypeAssert n a b)
  | ESyntax e => helper_msg io_text (HeSyntax e)
  | EIo k => helper_msg io_text (HeIo k)
  end.
