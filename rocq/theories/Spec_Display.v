(** * Spec_Display: what nodes show of themselves (C63).  No proofs in this file. *)
From Coq Require Import String.
From Verif Require Import Str Ast Spec_Source.
Open Scope nat_scope. Open Scope list_scope.

(** The text an item of a document displays: its source, except that blocks show only what their bodies show. *)
Fixpoint displayed (i : item) : str :=
  match i with
  | IRaw _ _ s _ => s
  | IBlock _ _ _ body _ _ => flat_map displayed body
  | _ => item_text i
  end.
(** no block in it *)
Definition block_free (i : item) : Prop := match i with IRaw _ _ _ _ | IBlock _ _ _ _ _ _ => False | _ => True end.
