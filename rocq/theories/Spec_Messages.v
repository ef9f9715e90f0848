(** * Spec_Messages: the vocabulary of the properties about error values and messages (C57, C58).  No proofs in this file. *)
From Coq Require Import String.
From Verif Require Import Str ErrInfo Messages.
Open Scope nat_scope. Open Scope list_scope.

(** ** The names an error is about: of the partial, variable, helper, field, and the types *)
Inductive about : rerr -> str -> Prop :=
| ab_partial n : about (EPartialNotFound n) n
| ab_variable p n : about (EVariableNotFound p n) p
| ab_helper n : about (EHelperNotFound n) n
| ab_evaluate p : about (EEvaluatePath p) p
| ab_partial_cycle n : about (EPartialCycle n) n
| ab_helper_cycle n : about (EHelperCycle n) n
| ab_partial_identifier p : about (EPartialIdentifier p) p
| ab_block_identifier p : about (EBlockIdentifier p) p
| ab_block n : about (EBlockTemplate n) n
| ab_no_block n : about (EBlockTemplateNotAllowed n) n
| ab_arity n k : about (EArityExact n k) n
| ab_arity_range n a b : about (EArityRange n a b) n
| ab_string n i : about (EArgumentTypeString n i) n
| ab_lookup n f : about (ELookupField n f) n
| ab_field n f : about (ELookupField n f) f
| ab_operand n : about (EInvalidNumericalOperand n) n
| ab_assert n a b : about (ETypeAssert n a b) n
| ab_expected n a b : about (ETypeAssert n a b) a
| ab_got n a b : about (ETypeAssert n a b) b.

(** an error whose text the library itself words: neither a helper's own message nor an I/O error *)
Definition worded (e : rerr) : Prop := match e with EMessage _ | EIo _ => False | _ => True end.
(** the names contain no apostrophe *)
Definition plain_names (e : rerr) : Prop := forall n, about e n -> ~ In 39%N n.

(** errors that the library's [==] can find equal to themselves; I/O errors are compared by kind *)
Definition comparable (e : any_error) : Prop :=
  match e with
  | AnySyntax _ | AnyTemplateNotFound _ | AnyRender (RePartialNotFound _) => True
  | _ => False
  end.

(** [s] surrounded by apostrophes stands somewhere in [t] *)
Definition quotes (t s : str) : Prop := exists a b, t = a ++ [39%N] ++ s ++ [39%N] ++ b.
