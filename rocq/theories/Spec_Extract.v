(** * Spec_Extract: which parts of a document can be moved into a partial (C83).  No proofs in this file. *)
From Coq Require Import String.
From Verif Require Import Str Json Ast Parser Render Helpers Registry Spec_Helpers Spec_Source Spec_Sem Spec_Fail Spec_Data.
Open Scope nat_scope. Open Scope list_scope.

(** a name that is no local variable of [with] and [each] (they start with [@]) *)
Definition not_local (n : str) : bool := match n with c :: _ => negb (N.eqb c 64%N) | [] => true end.
(** The path means the same with one more scope right below the [depth] innermost ones: names are looked up in all scopes, [@root] in none;
    the others must stay within these scopes.  The new scope is empty, or ([given]) has the value that [this] has right below it: then [this] means the same, too. *)
Definition path_own (given : bool) (depth : nat) (h : head) : bool :=
  match h with
  | HdName n => implb given (not_local n)
  | HdAbs _ => true
  | HdUp k n => match k with 0 => implb given (not_local n) | S _ => k <? depth end
  | HdThis | HdDot _ => given || (0 <? depth)
  | HdLocal n => streq n (lit "root") || (0 <? depth)
  end.
Fixpoint expr_own (given : bool) (depth : nat) (x : expr) : bool :=
  match x with EPath h t => path_own given depth h | ESub c => call_own given depth c | _ => true end
with call_own (given : bool) (depth : nat) (c : callx) : bool :=
  match c with Call h t xs hs => path_own given depth h && forallb (expr_own given depth) xs && forallb (fun kx => expr_own given depth (snd kx)) hs end.
Definition args_own (given : bool) (depth : nat) (xs : list expr) (hs : list (str * expr)) : bool :=
  forallb (expr_own given depth) xs && forallb (fun kx => expr_own given depth (snd kx)) hs.
(** every path of the item is like that, where [with] and [each] add a scope of their own; the item does not include the partial [n] (nor one with a
    computed name), has no partial block, and no block with a helper of one's own *)
Fixpoint item_own (given : bool) (r : registry) (n : str) (depth : nat) (i : item) : bool :=
  match i with
  | ICall _ _ true (Call h t xs hs) => negb (streq (path_shown h t) n) && args_own given depth xs hs
  | ICall _ _ false c | IDyn _ _ false c _ _ => call_own given depth c
  | IDyn _ _ true _ _ _ | IBlock true _ _ _ _ _ => false
  | IRaw (Call _ _ xs hs) _ _ _ => args_own given depth xs hs
  | IBlock false (Call h t xs hs) _ body bs _ =>
      let m := path_text h t in
      let registered := match assoc m (rg_helpers r) with Some _ => true | None => false end in
      let inside := if registered && among [lit "with"; lit "each"] m then S depth else depth in
      implb registered (among block_helpers m) && implb given (not_local m) && args_own given depth xs hs && forallb (item_own given r n inside) body
      && forallb (fun b => match fst (fst b) with Some c => call_own given depth c | None => true end && forallb (item_own given r n depth) (snd b)) bs
  | _ => true
  end.

(** what the helper does (writing texts, giving a value, failing) does not depend on the scopes it is called in *)
Definition unaware (w : world) (f : helper) : Prop :=
  forall blk scs scs' n vs ps text prop p, (exists ws v, p = writes ws v) \/ (exists s, p = halt s) ->
  acts w scs f n vs ps text prop blk p -> acts w scs' f n vs ps text prop blk p.
Definition unaware_registry (w : world) : Prop :=
  forall f, (exists n, assoc n (rg_helpers (w_reg w)) = Some f) \/ rg_missing (w_reg w) = Some f \/ rg_link (w_reg w) = Some f -> unaware w f.

(** two parts one after the other; texts that meet are one text *)
Fixpoint glue (a b : list item) : list item :=
  match a with
  | [] => b
  | i :: a' => match a', i, b with [], IText x, IText y :: b' => IText (x ++ y) :: b' | _, _, _ => i :: glue a' b end
  end.
(** no [~] reaches over the end (the start) of the part *)
Definition open_end (l : list item) : Prop := last_after false l = false /\ forall a x, l = a ++ [IText x] -> last_after false a = false.
Definition open_start (l : list item) : Prop := next_before false l = false /\ forall x a, l = IText x :: a -> next_before false a = false.
