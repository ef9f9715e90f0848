(** * Spec_Lexer: what a token stream of the lexer must look like, stated without the lexing loop.
    Used by the theorems about src/lexer.rs (C01-C04). *)
From Coq Require Import String.
From Verif Require Import Str Regex Lexer.
Open Scope nat_scope. Open Scope list_scope.

(** The language of a regular expression (independent of derivatives). *)
Inductive lang : re -> str -> Prop :=
| lang_eps : lang REps []
| lang_chr f c : f c = true -> lang (RChr f) [c]
| lang_cat a b s t : lang a s -> lang b t -> lang (RCat a b) (s ++ t)
| lang_alt_l a b s : lang a s -> lang (RAlt a b) s
| lang_alt_r a b s : lang b s -> lang (RAlt a b) s
| lang_star_nil a : lang (RStar a) []
| lang_star_cons a s t : lang a s -> lang (RStar a) t -> lang (RStar a) (s ++ t).

(** [pat_match r s n]: the first [n] characters of [s] (at least one) match [r]. *)
Definition pat_match (r : re) (s : str) (n : nat) : Prop :=
  1 <= n <= length s /\ lang r (firstn n s).


(** The rule that picks the next token in mode [m] when [s] remains: some pattern of the mode
    matches the first [n] characters, no pattern of the mode matches more characters, and no pattern
    of higher priority (listed earlier) matches equally many.  If no pattern of the mode matches any
    prefix, the token is the mode's error token for one character. *)
Definition next_token (m : mode) (s : str) (k : tkind) (n : nat) : Prop :=
  (exists higher r lower, pats m = higher ++ (r, k) :: lower
     /\ pat_match r s n
     /\ (forall r' k' n', In (r', k') (pats m) -> pat_match r' s n' -> n' <= n)
     /\ (forall r' k', In (r', k') higher -> ~ pat_match r' s n))
  \/ ((forall r' k' n', In (r', k') (pats m) -> ~ pat_match r' s n') /\ k = err_kind m /\ n = 1 /\ s <> []).

(** Token streams described without a loop: each token is the one [next_token] picks in the current
    mode, and the following tokens are read in the mode this token switches to. *)
Inductive tokenizes : mode -> nat -> str -> list token -> Prop :=
| tkz_nil m p : tokenizes m p [] []
| tkz_cons m p w rest k l :
    next_token m (w ++ rest) k (length w) ->
    tokenizes (next_mode k) (p + blen w) rest l ->
    tokenizes m p (w ++ rest) (Tok k p (p + blen w) :: l).

(** The mode a token was read in, recognisable from its type (one token type per mode). *)
Definition kind_mode (k : tkind) : mode :=
  match k with
  | TBlock _ => MBlock | TRawComment _ => MRawComment | TRawStatement _ => MRawStatement
  | TComment _ => MComment | TParam _ => MParam | TDouble _ => MDouble | TSingle _ => MSingle
  | TArray _ => MArray | TLink _ => MLink
  end.
(** Spans that start at byte [p], are not empty, are contiguous and end at byte [q]. *)
Fixpoint tiles (p q : nat) (l : list token) : Prop :=
  match l with
  | [] => p = q
  | t :: l' => t_start t = p /\ t_start t < t_end t /\ tiles (t_end t) q l'
  end.

(** The text of each token, in order, as read back from the source ([None]: the span is not valid). *)
Fixpoint token_texts (src : str) (l : list token) : option (list str) :=
  match l with
  | [] => Some []
  | t :: l' => match slice src (t_start t) (t_end t), token_texts src l' with
               | Some x, Some r => Some (x :: r)
               | _, _ => None
               end
  end.

(** ** The documented nesting of constructs, as a grammar over token kinds.
    [stream] is a document; every construct may be cut off by the end of the input. *)

(** tokens of a comment-like construct up to its terminator *)
Inductive plain_body (f : tplain -> tkind) (k : list tkind -> Prop) : list tkind -> Prop :=
| pb_eof : plain_body f k []
| pb_end l : k l -> plain_body f k (f PEnd :: l)
| pb_tok p l : p <> PEnd -> plain_body f k l -> plain_body f k (f p :: l).
(** tokens of a quoted string or bracketed name up to its closing delimiter *)
Inductive quote_body (f : tquote -> tkind) (k : list tkind -> Prop) : list tkind -> Prop :=
| qb_eof : quote_body f k []
| qb_end l : k l -> quote_body f k (f QEnd :: l)
| qb_tok q l : q <> QEnd -> quote_body f k l -> quote_body f k (f q :: l).
(** tokens of a link up to its [[\]\]]] *)
Inductive link_body (k : list tkind -> Prop) : list tkind -> Prop :=
| lb_eof : link_body k []
| lb_end l : k l -> link_body k (TLink LEnd :: l)
| lb_tok q l : q <> LEnd -> link_body k l -> link_body k (TLink q :: l).

(** a token of document mode that opens no construct *)
Definition doc_plain (b : tblock) : bool :=
  match b with BText | BNewline | BError => true | _ => false end.
(** a token of document mode that opens a statement, block or closing tag *)
Definition opens_params (b : tblock) : bool :=
  match b with
  | BStartRawBlock | BEndRawBlock | BStartStatement | BStartBlockScope | BEndBlockScope => true
  | _ => false
  end.
(** a token of parameter mode that neither closes the tag nor opens a quoted part *)
Definition param_plain (p : tparam) : bool :=
  match p with KDoubleQuote | KSingleQuote | KStartArray | KEnd => false | _ => true end.

Inductive stream : list tkind -> Prop :=
| st_eof : stream []
| st_plain b l : doc_plain b = true -> stream l -> stream (TBlock b :: l)
| st_raw_comment l : plain_body TRawComment stream l -> stream (TBlock BStartRawComment :: l)
| st_raw_statement l : plain_body TRawStatement stream l -> stream (TBlock BStartRawStatement :: l)
| st_comment l : plain_body TComment stream l -> stream (TBlock BStartComment :: l)
| st_link l : link_body stream l -> stream (TBlock BStartLink :: l)
| st_tag b l : opens_params b = true -> params l -> stream (TBlock b :: l)
with params : list tkind -> Prop :=
| pa_eof : params []
| pa_end l : stream l -> params (TParam KEnd :: l)
| pa_tok p l : param_plain p = true -> params l -> params (TParam p :: l)
| pa_double l : quote_body TDouble params l -> params (TParam KDoubleQuote :: l)
| pa_single l : quote_body TSingle params l -> params (TParam KSingleQuote :: l)
| pa_array l : quote_body TArray params l -> params (TParam KStartArray :: l).

(** No two neighbouring text tokens. *)
Fixpoint no_adjacent_text (l : list token) : Prop :=
  match l with
  | [] => True
  | t :: l' => match l' with
               | u :: _ => ~ (is_text (t_kind t) = true /\ is_text (t_kind u) = true)
               | [] => True
               end /\ no_adjacent_text l'
  end.
