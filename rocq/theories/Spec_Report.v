(** * Spec_Report: sources whose mistakes can always be reported (C10). *)
From Coq Require Import String.
From Verif Require Import Str Lexer Json Ast ErrInfo Parser Spec_Panic.
Open Scope nat_scope. Open Scope list_scope.

(** tokens that open a tag, a link or a sub-expression *)
Definition is_tag_open (k : tkind) : bool :=
  match k with TBlock (BStartStatement | BStartBlockScope | BEndBlockScope | BStartRawBlock | BEndRawBlock | BStartLink) | TParam KStartSub => true | _ => false end.
(** tokens that open a construct whose body runs to its closing token: raw blocks, comments, escaped statements *)
Definition is_body_open (k : tkind) : bool :=
  match k with TBlock (BStartRawBlock | BStartRawComment | BStartComment | BStartRawStatement) => true | _ => false end.
Definition is_parent (t : token) : bool := match t_kind t with TParam KParentRef => true | _ => false end.

(** An ASCII source in which
    - a character that is not a newline follows every token that opens a tag, a link or a sub-expression;
    - links contain no newline;
    - if there is a comment, an escaped statement or a raw block, the source does not end in a newline or in its
      opening token;
    - the source does not end inside a tag with a newline;
    - serde_json accepts the number literals;
    - there are at most 255 parent references, or arithmetic wraps. *)
Definition reportable (env : penv) (src : str) : Prop :=
  ascii src /\ forall toks, lex src = Some toks ->
    (forall t, In t toks -> is_tag_open (t_kind t) = true -> exists c, nth_error src (t_end t) = Some c /\ c <> 10%N)
    /\ (forall t k w, In t toks -> t_kind t = TLink k -> slice src (t_start t) (t_end t) = Some w -> ~ In 10%N w)
    /\ (forall t, In t toks -> is_body_open (t_kind t) = true -> t_end t < length src /\ forall s, src <> s ++ [10%N])
    /\ (forall l t, toks = l ++ [t] -> t_kind t <> TParam KNewline)
    /\ (forall t s, In t toks -> t_kind t = TParam KNumber -> slice src (t_start t) (t_end t) = Some s -> parse_number (pe_num env) s <> None)
    /\ (pe_checked env = false \/ length (filter is_parent toks) <= 255).
