(** * ErrInfo: model of /repo/src/error/source.rs and the kinds of /repo/src/error/syntax.rs.
    No proofs in this file. *)
From Coq Require Import String.
From Verif Require Import Str.
Open Scope nat_scope. Open Scope list_scope.

(** src/error/source.rs:53-64 [find_prev_line_offset]; outer [None] = slice panic.
    The argument is the Rust [counter], decreasing to 0. *)
Fixpoint find_prev (s : str) (counter : nat) : option (option nat) :=
  match counter with
  | 0 => Some None
  | S c =>
      match slice s counter (counter + 1) with
      | None => None
      | Some x => if streq x [10%N] then Some (Some counter) else find_prev s c
      end
  end.

(** src/error/source.rs:66-77 [find_next_line_offset]; [fuel] iterations left ([s.len() - counter]). *)
Fixpoint find_next (s : str) (fuel counter : nat) : option (option nat) :=
  match fuel with
  | 0 => Some None                       (* counter >= s.len() *)
  | S f =>
      match slice s counter (counter + 1) with
      | None => None
      | Some x => if streq x [10%N] then Some (Some counter) else find_next s f (counter + 1)
      end
  end.

(** [UnicodeWidthStr::width]: the sum of the character widths (oracle [w]). *)
Fixpoint str_width (w : chr -> nat) (s : str) : nat :=
  match s with [] => 0 | c :: s' => w c + str_width w s' end.

(** src/error/source.rs:106-160 [Debug for ErrorInfo], the snippet carried by every syntax error;
    [None] = a slice expression panics.  Simplification: [usize] arithmetic is unbounded here; the
    subtraction on line 126 cannot underflow once the slice on line 120 succeeded. *)
Definition err_info (w : chr -> nat) (file : str) (s : str) (line byte : nat) (notes : list str)
  : option str :=
  match find_prev s byte with
  | None => None
  | Some prev =>
      let prev_off := match prev with Some o => o + 1 | None => 0 end in
      match find_next s (blen s - byte) byte with
      | None => None
      | Some next =>
          let next_off := match next with Some o => o | None => blen s end in
          match slice s prev_off next_off with
          | None => None
          | Some line_slice =>
              let line_prefix := [32%N] ++ nat_str (line + 1) ++ lit " | " in
              let padding := repeat_c 32%N (blen line_prefix - 3) in
              let diff := (byte - prev_off) + 1 in
              match slice s prev_off (prev_off + diff) with
              | None => None
              | Some diff_str =>
                  let cols := str_width w diff_str in
                  let file_info := file ++ [58%N] ++ nat_str (line + 1) ++ [58%N] ++ nat_str cols in
                  let pointer := repeat_c 45%N (cols - 1) ++ [94%N] in
                  Some (padding ++ lit "--> " ++ file_info ++ [10%N]
                        ++ padding ++ lit " |" ++ [10%N]
                        ++ line_prefix ++ line_slice ++ [10%N]
                        ++ padding ++ lit " | " ++ pointer
                        ++ match notes with
                           | [] => []
                           | _ => [10%N] ++ flat_map (fun n => padding ++ lit " = note: " ++ n) notes
                           end)
              end
          end
      end
  end.

(** src/error/syntax.rs:7-169 [SyntaxError] variants *)
Inductive serr :=
| SExpectedIdentifier | SExpectedPath | SBlockName | SLiteralNewline | SPartialPosition
| SSubExprNotOpen | SSubExprTargetNotAllowed | SPathDelimiterNotAllowed | SElseNotAllowed
| SUnexpectedPathExplicitThis | SUnexpectedPathParent | SUnexpectedPathLocal
| SUnexpectedPathDelimiter | SUnexpectedPathParentWithLocal | SUnexpectedPathParentWithExplicit
| SExpectedPathDelimiter | SOpenSubExpression | STagNameMismatch | SBlockNotOpen
| SSubExpressionNotTerminated | SLinkNotTerminated | SRawBlockOpenNotTerminated
| SRawBlockNotTerminated | SRawCommentNotTerminated | SRawStatementNotTerminated
| SCommentNotTerminated | SBlockTargetSubExpr | SEmptyPath | SComponentType
| SMixedPartialConditional | STokenError | STokenCallTarget | STokenJsonLiteral
| STokenParameter | STokenHashKeyValue | STokenRawLiteral | STokenDoubleQuoteLiteral
| STokenSingleQuoteLiteral | STokenArrayLiteral | STokenLink | STokenParameterPath
| STokenEndRawBlock.

(** A syntax error value: the variant and the formatted snippet it carries. *)
Record syntax_error := mkSErr { se_kind : serr; se_info : str }.
