(** * Spec_Exchange: parts of templates that mean the same (C73, C74).  No proofs in this file. *)
From Coq Require Import String.
From Verif Require Import Str Json Ast Parser Render Registry Spec_Source Spec_Sem Spec_Fail.
Open Scope nat_scope. Open Scope list_scope.

(** two items that have the same [~] at their ends, write the same text and fail in the same way wherever they stand: in any
    scopes, below any calls in progress, for any content of [@partial-block], next to any [~] *)
Definition means_same (w : world) (i j : item) : Prop :=
  before i = before j /\ after i = after j
  /\ (forall scs act pb pb' s e out, item_out w scs act pb pb' s e i out <-> item_out w scs act pb pb' s e j out)
  /\ (forall nm scs act pb s e out err, item_err w nm scs act pb s e i out err <-> item_err w nm scs act pb s e j out err).

(** an item and what it becomes when parts of it, at any depth, are exchanged for parts that mean the same *)
Inductive exchanged (w : world) : item -> item -> Prop :=
| ex_here i j : means_same w i j -> exchanged w i j
| ex_inside p c m body bs m' body' bs' : Forall2 (exchanged w) body body' ->
    Forall2 (fun b b' => br_cond b = br_cond b' /\ br_tildes b = br_tildes b' /\ Forall2 (exchanged w) (br_body b) (br_body b')) bs bs' ->
    exchanged w (IBlock p c m body bs m') (IBlock p c m body' bs' m').

(** the same for the templates of a registry *)
Definition exchanged_docs (w w' : world) : Prop :=
  forall n, match assoc n (w_docs w), assoc n (w_docs w') with
            | Some d, Some d' => Forall2 (exchanged w') d d'
            | None, None => True
            | _, _ => False
            end.

(** a call, with its named arguments written in another order *)
Inductive reordered (hs hs' : list (str * expr)) : item -> item -> Prop :=
| ro_call tr m p h t xs : reordered hs hs' (ICall tr m p (Call h t xs hs)) (ICall tr m p (Call h t xs hs'))
| ro_dyn tr m p h t xs ys gs : reordered hs hs' (IDyn tr m p (Call h t xs hs) ys gs) (IDyn tr m p (Call h t xs hs') ys gs)
| ro_dyn_args tr m p c xs : reordered hs hs' (IDyn tr m p c xs hs) (IDyn tr m p c xs hs')
| ro_raw h t xs m x m' : reordered hs hs' (IRaw (Call h t xs hs) m x m') (IRaw (Call h t xs hs') m x m')
| ro_block p h t xs m body bs m' : reordered hs hs' (IBlock p (Call h t xs hs) m body bs m') (IBlock p (Call h t xs hs') m body bs m').
