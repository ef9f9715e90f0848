(** * Spec_Unused: documents that do not call a helper of a given name (C79).  No proofs in this file. *)
From Coq Require Import String.
From Verif Require Import Str Spec_Source.
Open Scope nat_scope. Open Scope list_scope.

(** no call in the expression (call) has the name [n] *)
Fixpoint expr_not (n : str) (x : expr) : bool := match x with ESub c => call_not n c | _ => true end
with call_not (n : str) (c : callx) : bool :=
  match c with
  | Call h t xs hs => negb (streq (path_text h t) n) && forallb (expr_not n) xs && forallb (fun kx => expr_not n (snd kx)) hs
  end.
Definition args_not (n : str) (xs : list expr) (hs : list (str * expr)) : bool := forallb (expr_not n) xs && forallb (fun kx => expr_not n (snd kx)) hs.
(** no statement, block, raw block, condition or sub-expression of the item has the name [n]; a partial may have it *)
Fixpoint item_not (n : str) (i : item) : bool :=
  match i with
  | ICall _ _ partial (Call h t xs hs) => (partial || negb (streq (path_text h t) n)) && args_not n xs hs
  | IDyn _ _ _ c xs hs => call_not n c && args_not n xs hs
  | IRaw c _ _ _ => call_not n c
  | IBlock partial (Call h t xs hs) _ body bs _ =>
      (partial || negb (streq (path_text h t) n)) && args_not n xs hs && forallb (item_not n) body
      && forallb (fun b => match fst (fst b) with Some c => call_not n c | None => true end && forallb (item_not n) (snd b)) bs
  | _ => true
  end.
