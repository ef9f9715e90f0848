(** * Spec_Inside: a part that is moved into a partial, at any depth (C83).  No proofs in this file. *)
From Coq Require Import String.
From Verif Require Import Str Json Ast Parser Render Helpers Registry Spec_Helpers Spec_Source Spec_Sem Spec_Fail Spec_Data Spec_Extract.
Open Scope nat_scope. Open Scope list_scope.

(** no [~] reaches over the end of the part, [s] being the one before it (over its start, [e] being the one after it) *)
Definition ends_open (s : bool) (l : list item) : Prop := last_after s l = false /\ forall a x, l = a ++ [IText x] -> last_after s a = false.
Definition starts_open (e : bool) (l : list item) : Prop := next_before e l = false /\ forall x a, l = IText x :: a -> next_before e a = false.

(** [moved r n d xs s e a b]: [b] is [a] with one occurrence of the items [d] replaced by a call of the partial [n] with the arguments [xs]: among the items themselves, or in the body of a block,
    or in one of its branches.  [s], [e]: a [~] right before the first item, right after the last.
    Blocks around the part are those of the library ([if], [unless], [with], [each]) or of a variable. *)
Inductive moved (r : registry) (n : str) (d : list item) (xs : list expr) : bool -> bool -> list item -> list item -> Prop :=
| mv_here s e pre post tr m :
    ends_open s pre -> starts_open e post -> tl_before m = false -> tl_after m = false ->
    moved r n d xs s e (glue pre (glue d post)) (pre ++ ICall tr m true (Call (HdName n) [] xs []) :: post)
| mv_body s e pre q ys hs m body body' bs m' post :
    In q block_helpers \/ assoc q (rg_helpers r) = None -> moved r n d xs (tl_after m) (tl_before (next_tag bs m')) body body' ->
    moved r n d xs s e (pre ++ IBlock false (Call (HdName q) [] ys hs) m body bs m' :: post) (pre ++ IBlock false (Call (HdName q) [] ys hs) m body' bs m' :: post)
| mv_branch s e pre q ys hs m body bs1 c t x x' bs2 m' post :
    In q block_helpers \/ assoc q (rg_helpers r) = None -> moved r n d xs (tl_after t) (tl_before (next_tag bs2 m')) x x' ->
    moved r n d xs s e (pre ++ IBlock false (Call (HdName q) [] ys hs) m body (bs1 ++ (c, t, x) :: bs2) m' :: post)
                    (pre ++ IBlock false (Call (HdName q) [] ys hs) m body (bs1 ++ (c, t, x') :: bs2) m' :: post).

(** the tag [{{> n}}], or [{{> n this}}] *)
Definition tag_args (given : bool) : list expr := if given then [EPath HdThis []] else [].
