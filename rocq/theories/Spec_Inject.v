(** * Spec_Inject: where the text of the output may come from (C78).  No proofs in this file. *)
From Coq Require Import String.
From Verif Require Import Str Lexer Json Ast Parser Render Helpers Registry Spec_Lexer Spec_Values Spec_Helpers Spec_Blocks Spec_Calls Spec_Source Spec_Sem Spec_Fail Spec_Total.
Open Scope nat_scope. Open Scope list_scope.

(** the texts of an item that rendering writes as they are *)
Inductive text_of : item -> str -> Prop :=
| tx_text x : text_of (IText x) x
| tx_escaped x : text_of (IEscaped x) (lit "{{" ++ x ++ lit "}}")
| tx_link esc parts : text_of (ILink esc parts) (lit "[[" ++ link_text parts ++ lit "]]")
| tx_raw c m x m' : text_of (IRaw c m x m') x
| tx_body p c m body bs m' i x : In i body -> text_of i x -> text_of (IBlock p c m body bs m') x
| tx_branch p c m body bs m' b i x : In b bs -> In i (br_body b) -> text_of i x -> text_of (IBlock p c m body bs m') x.
(** ... of the document [d] and of the registered templates *)
Definition template_text (w : world) (d : list item) (x : str) : Prop :=
  exists i, text_of i x /\ (In i d \/ exists n e, assoc n (w_docs w) = Some e /\ In i e).

(** no [{{{value}}}] *)
Fixpoint escaping (i : item) : bool :=
  match i with
  | ICall triple _ partial _ | IDyn triple _ partial _ _ _ => partial || negb triple
  | IBlock _ _ _ body bs _ => forallb escaping body && forallb (fun b => forallb escaping (snd b)) bs
  | _ => true
  end.
(** a helper that (called with or without a block) writes through the escape function only, or fails or panics at once; it may give a value *)
Definition careful (w : world) (blk : bool) (f : helper) : Prop :=
  forall scs n vs ps text prop, exists p, acts w scs f n vs ps text prop blk p
    /\ ((exists ws v, p = writes ws v /\ Forall (fun x => snd x = true) ws) \/ exists s, p = halt s).
(** all helpers and handlers are like that, except for the standard block helpers *)
Record careful_world (w : world) : Prop := mkCareful {
  ca_helper : forall n f, assoc n (rg_helpers (w_reg w)) = Some f -> careful w false f /\ (careful w true f \/ (In n block_helpers /\ builtin (w_plat w) n f));
  ca_missing : forall f, rg_missing (w_reg w) = Some f -> careful w false f;
  ca_block_missing : forall f, rg_block_missing (w_reg w) = Some f -> careful w true f;
  ca_link : forall f, rg_link (w_reg w) = Some f -> careful w false f }.

(** text put together from texts of the first kind (up to white space at their ends, see C46) and of the second kind *)
Inductive woven (own : str -> Prop) (other : str -> Prop) : str -> Prop :=
| woven_nil : woven own other []
| woven_own a y b out : own (a ++ y ++ b) -> blank a -> blank b -> woven own other out -> woven own other (y ++ out)
| woven_other y out : other y -> woven own other out -> woven own other (y ++ out).
(** a result of the escape function *)
Definition escaped_by (esc : str -> str) (y : str) : Prop := exists x, y = esc x.
